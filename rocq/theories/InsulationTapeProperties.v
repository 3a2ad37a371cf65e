(** Property C15: the tape between two sections. *)
From Coq Require Import ZArith QArith Qround Qabs List String Bool Lia Lqa.
From Verif Require Import Base QAux InsulationModel InsulationData InsulationProofs InsulationProperties.
Import ListNotations.
Open Scope Q_scope.

(** The thickest tape of a list of data points, with its dielectric strength:
    the first point of the largest thickness. *)
Definition thickest (tape : list (option Q * Q)) (t s : Q) : Prop :=
  exists pre post, tape = pre ++ (Some t, s) :: post /\ 0 < t /\
    (forall u e, In (Some u, e) pre -> u < t) /\
    (forall u e, In (Some u, e) post -> u <= t).

(** What one pair of wires offers, counted by the rule of the code. *)
Definition covered (l r : wire) (q : requirements) (v : Q) (n : nat) : Prop :=
  times_covered l r v (can_fully_insulated_wire_be_used q) = Ok n.

(** [n] layers of the tape withstand the voltage, up to a fraction of a layer. *)
Definition tape_withstands (n : Z) (t s v fraction : Q) : Prop :=
  v <= inject_Z n * (t * s) + fraction * (t * s).

Lemma thicker_fold_keep : forall (post : list (option Q * Q)) (t s : Q),
  (forall u e, In (Some u, e) post -> u <= t) ->
  fold_left (fun acc (p : option Q * Q) => match fst p with
    | None => acc
    | Some t => if Qlt_bool (fst acc) t then (t, snd p) else acc
    end) post (t, s) = (t, s).
Proof.
  induction post as [|[[u|] e] post IH]; intros t s H; [reflexivity| |]; cbn [fold_left fst snd].
  - rewrite (Qlt_no t u) by (apply (H u e); left; reflexivity).
    apply IH. intros u' e' I. apply (H u' e'). right. exact I.
  - apply IH. intros u' e' I. apply (H u' e'). right. exact I.
Qed.

Lemma thicker_fold_pre : forall (pre : list (option Q * Q)) (t : Q) (a : Q * Q), fst a < t ->
  (forall u e, In (Some u, e) pre -> u < t) ->
  fst (fold_left (fun acc (p : option Q * Q) => match fst p with
    | None => acc
    | Some t => if Qlt_bool (fst acc) t then (t, snd p) else acc
    end) pre a) < t.
Proof.
  induction pre as [|[[u|] e] pre IH]; intros t a A H; [exact A| |]; cbn [fold_left fst snd].
  - apply IH.
    + destruct (Qlt_bool (fst a) u); [cbn [fst]; apply (H u e); left; reflexivity | exact A].
    + intros u' e' I. apply (H u' e'). right. exact I.
  - apply IH; [exact A|]. intros u' e' I. apply (H u' e'). right. exact I.
Qed.

Lemma thickest_tape : forall tape t s, thickest tape t s -> thicker_tape tape = (t, s).
Proof.
  intros tape t s (pre & post & -> & P & A & B). unfold thicker_tape.
  rewrite fold_left_app. cbn [fold_left fst snd].
  rewrite Qlt_yes.
  - apply thicker_fold_keep. exact B.
  - apply thicker_fold_pre; assumption.
Qed.

Theorem C15_thickest_tape_is_used : forall tape t s, thickest tape t s -> thicker_tape tape = (t, s).
Proof. exact thickest_tape. Qed.

Lemma round1_ge : forall x, x - (1 # 20) <= roundFloat x 1.
Proof.
  intro x. pose proof (roundFloat_near x 1) as (B & _).
  change (p10 1) with 10 in B. assert (E : (1 # 2) / 10 == 1 # 20) by reflexivity. lra.
Qed.

Lemma layers_enough : forall v s t n, 0 < s -> 0 < t -> layers_for v s t = Ok n ->
  (1 <= n)%Z /\ tape_withstands n t s v (1 # 20).
Proof.
  intros v s t n S T H. unfold layers_for in H.
  replace (Qeq_bool s 0) with false in H.
  2: { symmetry. apply not_true_is_false. intro E. apply Qeq_bool_iff in E. lra. }
  assert (N : n = Z.max 1 (Qceiling (roundFloat (v / s / t) 1))) by congruence. clear H.
  split; [lia|]. unfold tape_withstands.
  pose proof (round1_ge (v / s / t)) as R.
  destruct (Qceiling_bounds (roundFloat (v / s / t) 1)) as (C & _).
  assert (NQ : inject_Z (Qceiling (roundFloat (v / s / t) 1)) <= inject_Z n) by (rewrite <- Zle_Qle; lia).
  assert (K : v / s / t <= inject_Z n + (1 # 20)) by lra.
  assert (P : 0 < t * s) by nra.
  assert (E : v == v / s / t * (t * s)) by (field; split; lra).
  rewrite E at 1. set (x := v / s / t) in *. set (k := t * s) in *. set (m := inject_Z n) in *.
  clearbody x k m. nra.
Qed.

Lemma layers_total : forall v s t, 0 < s -> exists n, layers_for v s t = Ok n.
Proof.
  intros v s t S. unfold layers_for. destruct (Qeq_bool s 0) eqn:E; [|eexists; reflexivity].
  apply Qeq_bool_iff in E. lra.
Qed.

(** The fix-up for the distance through insulation only adds layers. *)
Lemma finish_facts : forall n p c dti t b f, 0 < t -> (1 <= n)%Z ->
  finish_interface n p c dti t b = Some f ->
  (n <= f_layers f)%Z /\ f_thickness f == t * inject_Z (f_layers f) /\
  dti <= f_thickness f + (1 # 20) * t /\ f_margin f = c /\ f_purpose f = p /\
  (b = false -> c <= 0).
Proof.
  intros n p c dti t b f T N H. unfold finish_interface in H.
  destruct (Qlt_bool 0 c && negb b) eqn:B; [discriminate|].
  assert (BC : b = false -> c <= 0).
  { intros ->. rewrite andb_true_r in B. apply Qlt_false in B. exact B. }
  injection H as <-. cbn [f_layers f_thickness f_margin f_purpose].
  dle (t * inject_Z n) dti.
  - assert (X : t * (dti / t) == dti) by (field; lra).
    assert (GE : inject_Z n <= dti / t) by (rewrite (Qle_div_iff _ _ _ T); lra).
    set (x := dti / t) in *.
    pose proof (round1_ge x) as R.
    destruct (Qceiling_bounds (roundFloat x 1)) as (C & _).
    assert (GN : inject_Z n <= roundFloat x 1).
    { unfold roundFloat. change (p10 1) with 10. rewrite (Qle_div_iff (inject_Z n) _ 10) by reflexivity.
      assert (Z1 : inject_Z n * 10 == inject_Z (n * 10)) by (rewrite inject_Z_mult; reflexivity).
      rewrite Z1, <- Zle_Qle. rewrite <- (qround_Z (n * 10)). apply qround_mono.
      rewrite <- Z1. lra. }
    split; [|split; [reflexivity|split; [|auto]]].
    + assert (inject_Z n <= inject_Z (Qceiling (roundFloat x 1))) by lra.
      rewrite <- Zle_Qle in H. exact H.
    + set (k := inject_Z (Qceiling (roundFloat x 1))) in *. clearbody k x. nra.
  - split; [lia|]. split; [reflexivity|]. split; [lra|auto].
Qed.

Lemma tape_more : forall n m t s v e, 0 < t -> 0 < s -> (n <= m)%Z ->
  tape_withstands n t s v e -> tape_withstands m t s v e.
Proof.
  unfold tape_withstands. intros n m t s v e T S L H.
  assert (inject_Z n <= inject_Z m) by (rewrite <- Zle_Qle; exact L).
  assert (0 < t * s) by nra.
  set (a := inject_Z n) in *. set (b := inject_Z m) in *. set (k := t * s) in *. clearbody a b k. nra.
Qed.

Lemma coordination_of : forall D i co, calculate_insulation_coordination D i = Ok co ->
  required D Withstand i = Ok (co_withstand co) /\ required D (Creepage true) i = Ok (co_creepage co)
  /\ required D Dti i = Ok (co_dti co).
Proof. intros D i co H. destruct (C12_summary _ _ _ H) as (_ & A & B & C). auto. Qed.

(** Functional, basic, supplementary and reinforced insulation: unless the wires
    cover the withstand voltage, the layers of tape do, up to one twentieth of a
    layer; the tape is as thick as the distance through insulation, up to one
    twentieth of a layer; the margin is the creepage distance, or none when the
    wires cover the voltage at least twice. *)
Theorem C15_single_insulation_partial : forall D am aw i q l r tape t s v c dti i' f,
  i_insulation i = Some q -> q_type q <> DOUBLE ->
  thickest tape t s -> 0 < s ->
  required D Withstand i = Ok v -> required D (Creepage true) i = Ok c -> required D Dti i = Ok dti ->
  section_interface D am aw i l r tape = (i', Ok (Some f)) ->
  i' = i /\ (1 <= f_layers f)%Z /\
  f_thickness f == t * inject_Z (f_layers f) /\ dti <= f_thickness f + (1 # 20) * t /\
  (tape_withstands (f_layers f) t s v (1 # 20) \/
   aw = true /\ exists n, covered l r q v n /\ (1 <= n)%nat /\ (q_type q = REINFORCED -> (3 <= n)%nat)) /\
  (f_margin f = c \/ f_margin f = 0 /\ aw = true /\ exists n, covered l r q v n /\ (2 <= n)%nat) /\
  (am = false -> f_margin f <= 0).
Proof.
  intros D am aw i q l r tape t s v c dti i' f HI ND TH S HV HC HD H.
  pose proof (thickest_tape _ _ _ TH) as TT. destruct TH as (_ & _ & _ & T & _).
  unfold section_interface in H. rewrite HI, TT in H. cbn [fst snd] in H.
  replace (Qeq_bool t 0) with false in H.
  2: { symmetry. apply not_true_is_false. intro E. apply Qeq_bool_iff in E. lra. }
  destruct (calculate_insulation_coordination D i) as [co| | |] eqn:CO; try congruence.
  destruct (coordination_of _ _ _ CO) as (W1 & W2 & W3).
  assert (v = co_withstand co) by congruence. assert (c = co_creepage co) by congruence.
  assert (dti = co_dti co) by congruence. subst v c dti. clear HV HC HD W1 W2 W3.
  destruct (negb am && negb aw) eqn:OPT; [congruence|].
  unfold covered.
  set (V := co_withstand co) in *. set (C := co_creepage co) in *. set (DT := co_dti co) in *.
  destruct (times_covered l r V (can_fully_insulated_wire_be_used q)) as [n| | |] eqn:TC;
    try (destruct (q_type q); cbn [bind] in H; congruence).
  cbn [bind] in H.
  assert (SINGLE : q_type q <> REINFORCED ->
    (i, rr <- layers_single (q_type q) n aw C V s t ;;
        Ok (finish_interface (fst (fst rr)) (snd (fst rr)) (snd rr) DT t am)) = (i', Ok (Some f)) ->
    i' = i /\ (1 <= f_layers f)%Z /\
    f_thickness f == t * inject_Z (f_layers f) /\ DT <= f_thickness f + (1 # 20) * t /\
    (tape_withstands (f_layers f) t s V (1 # 20) \/
     aw = true /\ exists n', Ok n = Ok n' /\ (1 <= n')%nat /\ (q_type q = REINFORCED -> (3 <= n')%nat)) /\
    (f_margin f = C \/ f_margin f = 0 /\ aw = true /\ exists n', Ok n = Ok n' /\ (2 <= n')%nat) /\
    (am = false -> f_margin f <= 0)).
  { intros NR G. unfold layers_single in G.
    destruct (layers_for V s t) as [k| | |] eqn:LF.
    2-4: destruct (layers_total V s t S); congruence.
    - pose proof (layers_enough _ _ _ _ S T LF) as (K1 & KW).
      destruct (Nat.ltb 0 n && aw) eqn:WB.
      + apply andb_prop in WB. destruct WB as (N0 & ->). apply Nat.ltb_lt in N0.
        destruct (Qlt_bool 0 C && Nat.leb 3 n) eqn:W3.
        * apply andb_prop in W3. destruct W3 as (_ & N3). apply Nat.leb_le in N3.
          cbn [bind fst snd] in G. assert (FI : finish_interface 1 MECHANICAL 0 DT t am = Some f) by congruence.
          destruct (finish_facts _ _ _ _ _ _ _ T (Z.le_refl 1) FI) as (A1 & A2 & A3 & A4 & _ & A5).
          split; [congruence|]. split; [exact A1|]. split; [exact A2|]. split; [exact A3|].
          split; [right; split; [reflexivity|]; exists n; split; [reflexivity|]; split; [lia|intro; contradiction]|].
          split; [right; split; [exact A4|]; split; [reflexivity|]; exists n; split; [reflexivity|lia]|].
          intro B. rewrite A4. apply A5. exact B.
        * destruct (Qlt_bool 0 C && Nat.eqb n 2) eqn:W2.
          -- apply andb_prop in W2. destruct W2 as (_ & N2). apply Nat.eqb_eq in N2.
             cbn [bind fst snd] in G.
             assert (FI : finish_interface k (if class_eqb (q_type q) FUNCTIONAL then MECHANICAL else INSULATING)
                0 DT t am = Some f) by congruence.
             destruct (finish_facts _ _ _ _ _ _ _ T K1 FI) as (A1 & A2 & A3 & A4 & _ & A5).
             split; [congruence|]. split; [lia|]. split; [exact A2|]. split; [exact A3|].
             split; [left; exact (tape_more _ _ _ _ _ _ T S A1 KW)|].
             split; [right; split; [exact A4|]; split; [reflexivity|]; exists n; split; [reflexivity|lia]|].
             intro B. rewrite A4. apply A5. exact B.
          -- cbn [bind fst snd] in G.
             assert (FI : finish_interface 1 INSULATING C DT t am = Some f) by congruence.
             destruct (finish_facts _ _ _ _ _ _ _ T (Z.le_refl 1) FI) as (A1 & A2 & A3 & A4 & _ & A5).
             split; [congruence|]. split; [exact A1|]. split; [exact A2|]. split; [exact A3|].
             split; [right; split; [reflexivity|]; exists n; split; [reflexivity|]; split; [lia|intro; contradiction]|].
             split; [left; exact A4|]. intro B. rewrite A4. apply A5. exact B.
      + cbn [bind fst snd] in G.
        assert (FI : finish_interface k INSULATING C DT t am = Some f) by congruence.
        destruct (finish_facts _ _ _ _ _ _ _ T K1 FI) as (A1 & A2 & A3 & A4 & _ & A5).
        split; [congruence|]. split; [lia|]. split; [exact A2|]. split; [exact A3|].
        split; [left; exact (tape_more _ _ _ _ _ _ T S A1 KW)|].
        split; [left; exact A4|]. intro B. rewrite A4. apply A5. exact B. }
  destruct (q_type q) eqn:TY; try (apply SINGLE; [discriminate | exact H]); [|congruence].
  clear SINGLE. destruct (Nat.leb 3 n && aw) eqn:W3.
  - apply andb_prop in W3. destruct W3 as (N3 & ->). apply Nat.leb_le in N3.
    assert (FI : finish_interface 1 MECHANICAL 0 DT t am = Some f) by congruence.
    destruct (finish_facts _ _ _ _ _ _ _ T (Z.le_refl 1) FI) as (A1 & A2 & A3 & A4 & _ & A5).
    split; [congruence|]. split; [exact A1|]. split; [exact A2|]. split; [exact A3|].
    split; [right; split; [reflexivity|]; exists n; split; [reflexivity|]; split; [lia|auto]|].
    split; [right; split; [exact A4|]; split; [reflexivity|]; exists n; split; [reflexivity|lia]|].
    intro B. rewrite A4. apply A5. exact B.
  - destruct (layers_for V s t) as [k| | |] eqn:LF; cbn [bind] in H; try congruence.
    pose proof (layers_enough _ _ _ _ S T LF) as (K1 & KW).
    assert (FI : finish_interface k INSULATING C DT t am = Some f) by congruence.
    destruct (finish_facts _ _ _ _ _ _ _ T K1 FI) as (A1 & A2 & A3 & A4 & _ & A5).
    split; [congruence|]. split; [lia|]. split; [exact A2|]. split; [exact A3|].
    split; [left; exact (tape_more _ _ _ _ _ _ T S A1 KW)|].
    split; [left; exact A4|]. intro B. rewrite A4. apply A5. exact B.
Qed.

(** The same design with another insulation type. *)
Definition with_type (i : inputs) (q : requirements) (ty : class) : inputs :=
  mk_inputs
    (Some (mk_requirements ty (q_standards q) (q_altitude q) (q_cti q) (q_supply q)
             (q_category q) (q_pollution q)))
    (i_wiring i) (i_sides i) (i_ratios i) (i_vrms i) (i_vrms0 i) (i_vpeak i) (i_vpeak0 i) (i_freq i).

Lemma double_facts : forall n aw c v s t p k p' c', 0 < s -> 0 < t ->
  layers_double n aw c v s t p = Ok (k, p', c') ->
  (1 <= k)%Z /\
  (tape_withstands k t s v (1 # 20) \/ aw = true /\ (3 <= n)%nat) /\
  (c' = c \/ c' = 0 /\ aw = true /\ (2 <= n)%nat).
Proof.
  intros n aw c v s t p k p' c' S T H. unfold layers_double in H.
  destruct (Nat.leb 3 n && aw) eqn:A.
  - apply andb_prop in A. destruct A as (N & ->). apply Nat.leb_le in N.
    injection H as <- <- <-. split; [lia|]. split; [right; auto|]. right. split; [reflexivity|].
    split; [reflexivity|lia].
  - destruct (layers_for v s t) as [m| | |] eqn:LF; cbn [bind] in H; try discriminate.
    pose proof (layers_enough _ _ _ _ S T LF) as (K1 & KW).
    destruct (Qlt_bool 0 c && Nat.eqb n 2 && aw) eqn:B.
    + apply andb_prop in B. destruct B as (B & ->). apply andb_prop in B. destruct B as (_ & N).
      apply Nat.eqb_eq in N. injection H as <- <- <-. split; [exact K1|]. split; [left; exact KW|].
      right. split; [reflexivity|]. split; [reflexivity|lia].
    + injection H as <- <- <-. split; [exact K1|]. split; [left; exact KW|]. left. reflexivity.
Qed.

(** Double insulation takes the cheaper of the two constructions, so the tape
    withstands the smaller of the two voltages. *)
Theorem C15_double_insulation_partial : forall D am aw i q l r tape t s v vb vs c dti i' f,
  i_insulation i = Some q -> q_type q = DOUBLE ->
  thickest tape t s -> 0 < s ->
  required D Withstand i = Ok v -> required D (Creepage true) i = Ok c -> required D Dti i = Ok dti ->
  required D Withstand (with_type i q BASIC) = Ok vb ->
  required D Withstand (with_type i q SUPPLEMENTARY) = Ok vs ->
  section_interface D am aw i l r tape = (i', Ok (Some f)) ->
  i' = with_type i q DOUBLE /\ (1 <= f_layers f)%Z /\
  f_thickness f == t * inject_Z (f_layers f) /\ dti <= f_thickness f + (1 # 20) * t /\
  (tape_withstands (f_layers f) t s v (1 # 20) \/
   tape_withstands (f_layers f) t s (cmax vb vs) (1 # 20) \/
   aw = true /\ exists n, (3 <= n)%nat /\ (covered l r q v n \/ covered l r q (cmax vb vs) n)) /\
  (f_margin f = c \/ f_margin f = 0 /\ aw = true /\
    exists n, (2 <= n)%nat /\ (covered l r q v n \/ covered l r q (cmax vb vs) n)) /\
  (am = false -> f_margin f <= 0).
Proof.
  intros D am aw i q l r tape t s v vb vs c dti i' f HI TY TH S HV HC HD HB HS H.
  pose proof (thickest_tape _ _ _ TH) as TT. destruct TH as (_ & _ & _ & T & _).
  unfold section_interface in H. rewrite HI, TT in H. cbn [fst snd] in H.
  replace (Qeq_bool t 0) with false in H.
  2: { symmetry. apply not_true_is_false. intro E. apply Qeq_bool_iff in E. lra. }
  destruct (calculate_insulation_coordination D i) as [co| | |] eqn:CO; try congruence.
  destruct (coordination_of _ _ _ CO) as (W1 & W2 & W3).
  assert (v = co_withstand co) by congruence. assert (c = co_creepage co) by congruence.
  assert (dti = co_dti co) by congruence. subst v c dti. clear HV HC HD W1 W2 W3.
  destruct (negb am && negb aw) eqn:OPT; [congruence|]. rewrite TY in H.
  unfold covered.
  set (V := co_withstand co) in *. set (C := co_creepage co) in *. set (DT := co_dti co) in *.
  assert (SB : set_type i BASIC = with_type i q BASIC) by (unfold set_type; rewrite HI; reflexivity).
  assert (SS : set_type i SUPPLEMENTARY = with_type i q SUPPLEMENTARY) by (unfold set_type; rewrite HI; reflexivity).
  assert (SD : set_type i DOUBLE = with_type i q DOUBLE) by (unfold set_type; rewrite HI; reflexivity).
  rewrite SB, SS, SD in H. cbn [required] in HB, HS. rewrite HB, HS in H.
  destruct (times_covered l r V (can_fully_insulated_wire_be_used q)) as [n1| | |] eqn:T1;
    cbn [bind] in H; try congruence.
  destruct (layers_double n1 aw C V s t INSULATING) as [[[k1 p1] c1]| | |] eqn:L1; try congruence.
  destruct (times_covered l r (cmax vb vs) (can_fully_insulated_wire_be_used q)) as [n2| | |] eqn:T2;
    cbn [bind] in H; try congruence.
  destruct (layers_double n2 aw c1 (cmax vb vs) s t p1) as [[[k2 p2] c2]| | |] eqn:L2;
    cbn [bind fst snd] in H; try congruence.
  assert (FI : finish_interface (Z.min k1 k2) p2 c2 DT t am = Some f) by congruence.
  destruct (double_facts _ _ _ _ _ _ _ _ _ _ S T L1) as (K1 & A1 & B1).
  destruct (double_facts _ _ _ _ _ _ _ _ _ _ S T L2) as (K2 & A2 & B2).
  assert (KM : (1 <= Z.min k1 k2)%Z) by lia.
  destruct (finish_facts _ _ _ _ _ _ _ T KM FI) as (F1 & F2 & F3 & F4 & _ & F5).
  split; [congruence|]. split; [lia|]. split; [exact F2|]. split; [exact F3|].
  split; [|split].
  - destruct A1 as [A1|(-> & N1)].
    2: { right. right. split; [reflexivity|]. exists n1. split; [exact N1|]. left. reflexivity. }
    destruct A2 as [A2|(-> & N2)].
    2: { right. right. split; [reflexivity|]. exists n2. split; [exact N2|]. right. reflexivity. }
    destruct (Z.min_spec k1 k2) as [(_ & E)|(_ & E)]; rewrite E in F1.
    + left. exact (tape_more _ _ _ _ _ _ T S F1 A1).
    + right. left. exact (tape_more _ _ _ _ _ _ T S F1 A2).
  - rewrite F4. destruct B2 as [->|(-> & -> & N2)].
    + destruct B1 as [->|(-> & -> & N1)]; [left; reflexivity|].
      right. split; [reflexivity|]. split; [reflexivity|]. exists n1. split; [exact N1|]. left. reflexivity.
    + right. split; [reflexivity|]. split; [reflexivity|]. exists n2. split; [exact N2|]. right. reflexivity.
  - intro B. rewrite F4. exact (F5 B).
Qed.

(** No interface is offered only when margin tape is needed and not allowed. *)
Theorem C15_no_interface_only_for_lack_of_margin : forall D am aw i l r tape t s c i',
  thickest tape t s -> required D (Creepage true) i = Ok c ->
  section_interface D am aw i l r tape = (i', Ok None) -> am = false /\ 0 < c.
Proof.
  intros D am aw i l r tape t s c i' TH HC H.
  pose proof (thickest_tape _ _ _ TH) as TT. destruct TH as (_ & _ & _ & T & _).
  unfold section_interface in H. destruct (i_insulation i) as [q|]; [|congruence].
  rewrite TT in H. cbn [fst snd] in H.
  replace (Qeq_bool t 0) with false in H.
  2: { symmetry. apply not_true_is_false. intro E. apply Qeq_bool_iff in E. lra. }
  destruct (calculate_insulation_coordination D i) as [co| | |] eqn:CO; try congruence.
  destruct (coordination_of _ _ _ CO) as (_ & W2 & _).
  assert (c = co_creepage co) by congruence. subst c. clear HC W2.
  destruct (negb am && negb aw) eqn:OPT; [congruence|].
  set (C := co_creepage co) in *.
  assert (FIN : forall n p cr, (cr = C \/ cr = 0) -> finish_interface n p cr (co_dti co) t am = None ->
    am = false /\ 0 < C).
  { intros n p cr OR F. unfold finish_interface in F.
    destruct (Qlt_bool 0 cr && negb am) eqn:B; [|discriminate].
    apply andb_prop in B. destruct B as (B1 & B2). apply Qlt_true in B1.
    apply negb_true_iff in B2. destruct OR; subst; [auto|lra]. }
  assert (DBL : forall n aw cr v p k p' c', (cr = C \/ cr = 0) ->
    layers_double n aw cr v s t p = Ok (k, p', c') -> c' = C \/ c' = 0).
  { intros n aw' cr v p k p' c' OR F. unfold layers_double in F.
    destruct (Nat.leb 3 n && aw'); [injection F as <- <- <-; auto|].
    destruct (layers_for v s t); cbn [bind] in F; try discriminate.
    destruct (Qlt_bool 0 cr && Nat.eqb n 2 && aw'); injection F as <- <- <-; auto. }
  destruct (q_type q) eqn:TY.
  5: { destruct (times_covered l r (co_withstand co) (can_fully_insulated_wire_be_used q)) as [n1| | |];
         cbn [bind] in H; try congruence.
       destruct (layers_double n1 aw C (co_withstand co) s t INSULATING) as [[[k1 p1] c1]| | |] eqn:L1; try congruence.
       destruct (calculate_withstand_voltage D (set_type i BASIC)) as [vb| | |]; try congruence.
       destruct (calculate_withstand_voltage D (set_type i SUPPLEMENTARY)) as [vs| | |]; try congruence.
       destruct (times_covered l r (cmax vb vs) (can_fully_insulated_wire_be_used q)) as [n2| | |];
         cbn [bind] in H; try congruence.
       destruct (layers_double n2 aw c1 (cmax vb vs) s t p1) as [[[k2 p2] c2]| | |] eqn:L2;
         cbn [bind fst snd] in H; try congruence.
       apply (FIN (Z.min k1 k2) p2 c2); [|congruence].
       eapply DBL; [|exact L2]. eapply DBL; [|exact L1]. left. reflexivity. }
  4: { destruct (times_covered l r (co_withstand co) (can_fully_insulated_wire_be_used q)) as [n1| | |];
         cbn [bind] in H; try congruence.
       destruct (Nat.leb 3 n1 && aw).
       - apply (FIN 1%Z MECHANICAL 0); [right; reflexivity | congruence].
       - destruct (layers_for (co_withstand co) s t) as [k| | |]; cbn [bind] in H; try congruence.
         apply (FIN k INSULATING C); [left; reflexivity | congruence]. }
  all: destruct (times_covered l r (co_withstand co) (can_fully_insulated_wire_be_used q)) as [n1| | |];
         cbn [bind] in H; try congruence.
  all: match type of H with context [layers_single ?ty] =>
         destruct (layers_single ty n1 aw C (co_withstand co) s t) as [[[k p] cr]| | |] eqn:LS;
           cbn [bind fst snd] in H; try congruence; apply (FIN k p cr); [|congruence];
           unfold layers_single in LS end.
  all: destruct (Nat.ltb 0 n1 && aw);
       [destruct (Qlt_bool 0 C && Nat.leb 3 n1);
         [|destruct (Qlt_bool 0 C && Nat.eqb n1 2)]|].
  all: try (destruct (layers_for (co_withstand co) s t); cbn [bind] in LS; try discriminate).
  all: injection LS as <- <- <-; auto.
Qed.

(** Mains to low voltage on the bundled tables, bare wires, one tape. *)
Definition bare : wire := mk_wire false None None.
Definition some_tape : list (option Q * Q) := [(Some (5 # 100000), 20000000); (Some (1 # 10000), 12250000)].

(** The rounding to one decimal before the ceiling loses up to half a tenth of a
    layer: 2500 V with layers of 1225 V gets two layers, 2450 V. *)
Theorem C15_exactly_covered_refuted : forall skin, exists i q v f,
  i_insulation i = Some q /\
  required (bundled skin) Withstand i = Ok v /\
  section_interface (bundled skin) true true i bare bare some_tape = (i, Ok (Some f)) /\
  thickest some_tape (1 # 10000) 12250000 /\
  v == 2500 /\ f_layers f = 2%Z /\ ~ tape_withstands (f_layers f) (1 # 10000) 12250000 v 0.
Proof.
  intro skin. exists (design mains (Some WOUND) 230 325 50), mains, 2500. eexists.
  split; [reflexivity|]. split; [vm_compute; reflexivity|].
  split; [vm_compute; reflexivity|].
  split.
  { exists [(Some (5 # 100000), 20000000)], []. split; [reflexivity|]. split; [reflexivity|]. split.
    - intros u e [H|[]]. injection H as <- <-. reflexivity.
    - intros u e []. }
  split; [reflexivity|]. split; [reflexivity|]. unfold tape_withstands. intro H. vm_compute in H. apply H. reflexivity.
Qed.

Example C15_witness : forall skin, exists f,
  section_interface (bundled skin) true true (design mains (Some WOUND) 230 325 50) bare bare
    [(Some (1 # 10000), 10000000)] = (design mains (Some WOUND) 230 325 50, Ok (Some f)) /\
  f_layers f = 3%Z /\ 0 < f_margin f.
Proof. intro skin. eexists. split; [vm_compute; reflexivity|]. split; reflexivity. Qed.

Print Assumptions C15_single_insulation_partial.
Print Assumptions C15_double_insulation_partial.
Print Assumptions C15_no_interface_only_for_lack_of_margin.
Print Assumptions C15_exactly_covered_refuted.
