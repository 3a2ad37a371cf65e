(** The losses of a coil by turn, layer, section and winding agree with each
    other and with the total (C93). *)
From Coq Require Import ZArith QArith List String Bool Lia Lra Lqa.
From Verif Require Import Base QAux LossModel LossSpec LossProofs LossProperties.
Import ListNotations.
Open Scope outcome_scope.
Open Scope string_scope.
Open Scope list_scope.
Open Scope Q_scope.

(** ** Vocabulary *)
Definition watts (l : list (Q * Q)) : Q := Qsum (map snd l).
(** the three parts of an element's losses, when they are numbers *)
Definition ohmic_part (e : element) : option Q := e_ohmic e.
Definition skin_part (e : element) : option Q := option_map watts (e_skin e).
Definition proximity_part (e : element) : option Q := option_map watts (e_proximity e).
(** a part of the losses summed over elements; all of them must be numbers *)
Definition amounts (part : element -> option Q) (es : list element) (q : Q) : Prop :=
  exists qs, Forall2 (fun e v => exists v', part e = Some v' /\ v' == v) es qs /\ q == Qsum qs.
Definition agree (a b : list element) : Prop :=
  forall part, In part [ohmic_part; skin_part; proximity_part] ->
  exists q, amounts part a q /\ amounts part b q.
(** the turns are shared out over the names: each turn has one of them, no name
    comes twice, no name is without turns *)
Definition shared_out (name : turn -> option string) (l : list turn) (names : list string) : Prop :=
  NoDup names /\ (forall t, In t l -> exists n, name t = Some n /\ In n names) /\
  forall n, In n names -> exists t, In t l /\ name t = Some n.

(** ** Proofs *)
Lemma sum_losses_watts : forall l, sum_losses l == watts l.
Proof.
  assert (G : forall l a, fold_left (fun a '(_, x) => a + x) l a == a + watts l).
  { induction l as [|[f x] l IH]; intros a; simpl; [unfold watts; simpl; ring|].
    rewrite IH. unfold watts. simpl. ring. }
  intros l. unfold sum_losses. rewrite G. ring.
Qed.
Lemma accumulate_watts : forall l acc r, accumulate acc l = Ok r -> watts r == watts acc + watts l.
Proof.
  induction l as [|[f' x] l IH]; intros acc r H.
  - destruct acc as [|[f a] acc]; simpl in H; injection H as <-; unfold watts; simpl; ring.
  - destruct acc as [|[f a] acc]; [discriminate|]. simpl in H. step H. injection H as <-.
    apply IH in E. unfold watts in *. simpl. rewrite E. ring.
Qed.
Lemma zeros_watts : forall l, watts (zeros l) == 0.
Proof. intros l. unfold watts, zeros. induction l as [|[f x] l IH]; simpl; [reflexivity|]. rewrite IH. ring. Qed.

(** parts of the turns listed *)
Definition part_at (part : element -> option Q) (es : list element) (k : nat) : Q :=
  match nth_error es k with Some e => match part e with Some q => q | None => 0 end | None => 0 end.

Lemma combine_loop_ok : forall es ks acc r,
  (forall e, In e es -> exists v, e_ohmic e = Some v) ->
  combine_loop es ks acc = Ok r ->
  match r with
  | None => acc = None /\ ks = []
  | Some (o, s, p) =>
      match acc with
      | None => ks <> [] /\ exists v, o = Some v /\
          v == Qsum (map (part_at ohmic_part es) ks) /\
          watts s == Qsum (map (part_at skin_part es) ks) /\
          watts p == Qsum (map (part_at proximity_part es) ks)
      | Some (o0, s0, p0) => forall v0, o0 = Some v0 -> exists v, o = Some v /\
          v == v0 + Qsum (map (part_at ohmic_part es) ks) /\
          watts s == watts s0 + Qsum (map (part_at skin_part es) ks) /\
          watts p == watts p0 + Qsum (map (part_at proximity_part es) ks)
      end
  end.
Proof.
  intros es ks. induction ks as [|k ks IH]; intros acc r F H.
  { simpl in H. injection H as <-. destruct acc as [[[o s] p]|]; [|auto].
    intros v0 ->. exists v0. cbn [map Qsum]. repeat split; ring. }
  simpl in H. destruct (nth_error es k) as [e|] eqn:Ek; [|discriminate].
  destruct (e_skin e) as [s'|] eqn:Es; [|discriminate]. destruct (e_proximity e) as [p'|] eqn:Ep; [|discriminate].
  destruct (F e (nth_error_In _ _ Ek)) as (v' & Ev).
  set (a := match acc with Some a => a | None => (Some 0, zeros s', zeros p') end) in *.
  destruct a as [[o0 s0] p0] eqn:Ea. step H. step H.
  pose proof (accumulate_watts _ _ _ E) as W1. pose proof (accumulate_watts _ _ _ E0) as W2.
  specialize (IH _ _ F H). destruct r as [[[o s] p]|]; [|destruct IH; discriminate].
  cbn [map Qsum].
  assert (PO : part_at ohmic_part es k = v') by (unfold part_at; rewrite Ek; unfold ohmic_part; now rewrite Ev).
  assert (PS : part_at skin_part es k = watts s') by (unfold part_at; rewrite Ek; unfold skin_part; now rewrite Es).
  assert (PP : part_at proximity_part es k = watts p') by (unfold part_at; rewrite Ek; unfold proximity_part; now rewrite Ep).
  rewrite PO, PS, PP. destruct acc as [[[o1 s1] p1]|].
  - subst a. injection Ea as <- <- <-. intros v0 ->.
    destruct (IH (v0 + v')) as (v & A & B & C & D); [rewrite Ev; reflexivity|].
    exists v. split; [exact A|]. rewrite B, C, D, W1, W2. repeat split; ring.
  - subst a. injection Ea as <- <- <-. split; [discriminate|].
    destruct (IH (0 + v')) as (v & A & B & C & D); [rewrite Ev; reflexivity|].
    exists v. split; [exact A|]. rewrite B, C, D, W1, W2, !zeros_watts. repeat split; ring.
Qed.

Lemma turns_where_ok : forall f l i name ks, turns_where f l i name = Ok ks ->
  (forall t, In t l -> exists n, f t = Ok n) /\
  forall g : nat -> Q, Qsum (map g ks) ==
    Qsum (map (fun '(k, t) => match f t with Ok n => if String.eqb n name then g k else 0 | _ => 0 end)
              (combine (seq i (List.length l)) l)).
Proof.
  induction l as [|t l IH]; intros i name ks H; simpl in H.
  { injection H as <-. split; [intros ? []|reflexivity]. }
  step H. step H. injection H as <-. destruct (IH _ _ _ E0) as [A B]. split.
  - intros t' [<-|I]; eauto.
  - intros g. cbn [List.length seq combine map Qsum]. rewrite E, <- B.
    destruct (String.eqb x name); cbn [map Qsum]; ring.
Qed.
Lemma turns_where_nonempty : forall f l i name ks, turns_where f l i name = Ok ks ->
  (exists t, In t l /\ f t = Ok name) -> ks <> [].
Proof.
  induction l as [|t l IH]; intros i name ks H (t0 & I0 & E0); [destruct I0|].
  simpl in H. step H. step H. injection H as <-. destruct I0 as [<-|I0].
  - rewrite E in E0. injection E0 as ->. rewrite String.eqb_refl. discriminate.
  - destruct (String.eqb x name); [discriminate|]. eapply IH; eauto.
Qed.

Definition part_ok (part : element -> option Q) : Prop := In part [ohmic_part; skin_part; proximity_part].

Lemma combine_element_ok : forall es ks name e part,
  (forall e, In e es -> exists v, e_ohmic e = Some v) -> ks <> [] ->
  combine_element es ks name = Ok e -> part_ok part ->
  e_name e = name /\ exists q, part e = Some q /\ q == Qsum (map (part_at part es) ks).
Proof.
  intros es ks name e part F N H P. unfold combine_element in H. step H.
  pose proof (combine_loop_ok es ks None _ F E) as G. destruct x as [[[o s] p]|].
  - injection H as <-. destruct G as (_ & v & A & B & C & D). split; [reflexivity|].
    destruct P as [<-|[<-|[<-|[]]]]; cbn; eauto.
  - destruct G. contradiction.
Qed.

Lemma combine_all_ok : forall f l es names rs part,
  (forall e, In e es -> exists v, e_ohmic e = Some v) ->
  (forall n, In n names -> exists t, In t l /\ f t = Ok n) -> part_ok part ->
  combine_all f l es names = Ok rs ->
  map e_name rs = names /\
  exists qs, Forall2 (fun e v => exists v', part e = Some v' /\ v' == v) rs qs /\
    Forall2 (fun n q => q == Qsum (map (fun '(k, t) =>
        match f t with Ok m => if String.eqb m n then part_at part es k else 0 | _ => 0 end)
        (combine (seq 0 (List.length l)) l))) names qs.
Proof.
  intros f l es names. induction names as [|n names IH]; intros rs part F S' P H; simpl in H.
  { injection H as <-. split; [reflexivity|]. exists []. split; constructor. }
  step H. step H. step H. injection H as <-.
  destruct (IH _ part F (fun n' I => S' n' (or_intror I)) P E1) as (A & qs & B & C).
  pose proof (turns_where_nonempty _ _ _ _ _ E (S' n (or_introl eq_refl))) as N.
  destruct (combine_element_ok _ _ _ _ part F N E0 P) as (En & q & Eq & Vq).
  destruct (turns_where_ok _ _ _ _ _ E) as [_ T].
  split; [cbn [map]; congruence|]. exists (q :: qs). split.
  - constructor; [exists q; split; [exact Eq|reflexivity]|exact B].
  - constructor; [now rewrite Vq, T|exact C].
Qed.

Lemma Qsum_pick_name : forall (names : list string) n v, NoDup names -> In n names ->
  Qsum (map (fun m => if String.eqb n m then v else 0) names) == v.
Proof.
  induction names as [|m names IH]; intros n v D I; [destruct I|]. inversion D as [|? ? Ni D']; subst.
  cbn [map Qsum]. destruct I as [->|I].
  - rewrite String.eqb_refl, Qsum_map_zero; [ring|]. intros m' Im.
    destruct (String.eqb_spec n m'); [subst; contradiction|reflexivity].
  - destruct (String.eqb_spec n m); [subst; contradiction|]. rewrite (IH n v D' I). ring.
Qed.
Lemma Qsum_swap : forall A B (f : A -> B -> Q) la lb,
  Qsum (map (fun a => Qsum (map (f a) lb)) la) == Qsum (map (fun b => Qsum (map (fun a => f a b) la)) lb).
Proof.
  induction la as [|a la IH]; intros lb; cbn [map Qsum].
  - symmetry. apply Qsum_map_zero. reflexivity.
  - rewrite IH, <- Qsum_map_add. reflexivity.
Qed.
Lemma Forall2_Qsum : forall A (P : A -> Q -> Prop) (f : A -> Q) l qs,
  Forall2 P l qs -> (forall a q, P a q -> q == f a) -> Qsum qs == Qsum (map f l).
Proof. intros A P f l qs F H. induction F; simpl; [reflexivity|]. rewrite (H _ _ H0), IHF. reflexivity. Qed.

Lemma Qsum_indexed : forall A (f : nat -> Q) (l : list A) i,
  Qsum (map (fun '(k, _) => f k) (combine (seq i (List.length l)) l)) == Qsum (map f (seq i (List.length l))).
Proof. intros A f l. induction l as [|a l IH]; intros i; cbn [List.length seq combine map Qsum]; [reflexivity|]. now rewrite IH. Qed.

Lemma combine_all_agree : forall (name : turn -> option string) f l es names rs,
  (forall t n, name t = Some n -> f t = Ok n) -> List.length es = List.length l ->
  (forall e, In e es -> exists v, e_ohmic e = Some v) ->
  (forall e, In e es -> e_skin e <> None /\ e_proximity e <> None) ->
  shared_out name l names -> combine_all f l es names = Ok rs ->
  map e_name rs = names /\ agree es rs.
Proof.
  intros name f l es names rs FN LE F FS (ND & IN & NE) H.
  assert (S' : forall n, In n names -> exists t, In t l /\ f t = Ok n).
  { intros n I. destruct (NE n I) as (t & It & Et). exists t. auto. }
  split.
  { destruct (combine_all_ok f l es names rs ohmic_part F S') as [A _]; auto. now left. }
  intros part P. destruct (combine_all_ok f l es names rs part F S' P H) as (_ & qs & B & C).
  exists (Qsum qs). split; [|exists qs; split; [exact B|reflexivity]].
  exists (map (part_at part es) (seq 0 (List.length es))). split.
  - assert (G : forall k, (k <= List.length es)%nat ->
      Forall2 (fun e v => exists v', part e = Some v' /\ v' == v) (skipn k es)
        (map (part_at part es) (seq k (List.length es - k)))).
    { intros k. remember (List.length es - k)%nat as m eqn:Em. revert k Em.
      induction m as [|m IH]; intros k Em Lk.
      - rewrite skipn_all2 by lia. constructor.
      - destruct (nth_error es k) as [e|] eqn:Ek; [|apply nth_error_None in Ek; lia].
        assert (Sk : skipn k es = e :: skipn (S k) es).
        { clear -Ek. revert k Ek. induction es as [|a es IH]; intros [|k] Ek; try discriminate; simpl in *.
          - now injection Ek as ->.
          - now apply IH. }
        rewrite Sk. cbn [seq map]. constructor; [|apply IH; lia].
        unfold part_at. rewrite Ek. pose proof (nth_error_In _ _ Ek) as Ie.
        destruct (F e Ie) as (v & Ev). destruct (FS e Ie) as [Fs Fp].
        destruct P as [<-|[<-|[<-|[]]]]; unfold ohmic_part, skin_part, proximity_part.
        + rewrite Ev. eexists; split; reflexivity.
        + destruct (e_skin e); [|congruence]. eexists; split; reflexivity.
        + destruct (e_proximity e); [|congruence]. eexists; split; reflexivity. }
    specialize (G 0%nat ltac:(lia)). cbn [skipn] in G. now rewrite Nat.sub_0_r in G.
  - rewrite (Forall2_Qsum _ _ _ _ _ C (fun _ _ E => E)), Qsum_swap, LE, <- (Qsum_indexed _ _ l 0).
    apply Qsum_map_ext. intros [k t] It. apply in_combine_r in It.
    destruct (IN t It) as (n & En & In'). rewrite (FN t n En). now apply Qsum_pick_name.
Qed.

Lemma nth_error_ext : forall A (a b : list A), (forall k, nth_error a k = nth_error b k) -> a = b.
Proof.
  induction a as [|x a IH]; intros [|y b] H; [reflexivity|specialize (H 0%nat); discriminate|specialize (H 0%nat); discriminate|].
  pose proof (H 0%nat) as H0. injection H0 as <-. f_equal. apply IH. intros k. exact (H (S k)).
Qed.

Section Losses.
Variable skin_model : winding -> ext -> Q -> Q -> Q -> outcome Q.
Variable field_losses : nat -> winding -> outcome (list (Q * Q) * option (list (Q * Q))).
Variable prune : operating_point -> outcome operating_point.
Variable has_waveform : current -> bool.

Lemma skin_loop_ok : forall c op T l es ds es' q,
  List.length es = List.length l ->
  skin_loop skin_model c op T l es ds = Ok (es', q) ->
  Forall2 (fun e e' => e_name e' = e_name e /\ e_ohmic e' = e_ohmic e /\ e_proximity e' = e_proximity e /\
    exists s, e_skin e' = Some s) es es' /\
  q == Qsum (map (fun e => match skin_part e with Some v => v | None => 0 end) es').
Proof.
  intros c op T l. induction l as [|t l IH]; intros es ds es' q L H; destruct es as [|e es]; try discriminate.
  { simpl in H. injection H as <- <-. split; [constructor|reflexivity]. }
  simpl in H. destruct ds as [|d ds]; [discriminate|].
  do 7 step H. destruct x5 as [es1 q1]. injection H as <- <-. simpl in L. injection L as L.
  destruct (IH _ _ _ _ L E5) as [A B]. split.
  - constructor; [|exact A]. cbn. repeat split; eauto.
  - cbn [fst snd map Qsum]. rewrite B. cbn [skin_part set_skin e_skin option_map]. now rewrite sum_losses_watts.
Qed.

Lemma proximity_loop_ok : forall c l i es es' q,
  List.length es = List.length l ->
  proximity_loop field_losses c l i es = Ok (es', q) ->
  Forall2 (fun e e' => e_name e' = e_name e /\ e_ohmic e' = e_ohmic e /\ e_skin e' = e_skin e /\
    exists s, e_proximity e' = Some s) es es' /\
  q == Qsum (map (fun e => match proximity_part e with Some v => v | None => 0 end) es').
Proof.
  intros c l. induction l as [|t l IH]; intros i es es' q L H; destruct es as [|e es]; try discriminate.
  { simpl in H. injection H as <- <-. split; [constructor|reflexivity]. }
  simpl in H. do 6 step H. destruct x4 as [es1 q1]. injection H as <- <-. simpl in L. injection L as L.
  destruct (IH _ _ _ _ L E4) as [A B]. split.
  - constructor; [|exact A]. cbn. repeat split; eauto.
  - cbn [fst snd map Qsum]. rewrite B. cbn [proximity_part set_proximity e_proximity option_map]. now rewrite sum_losses_watts.
Qed.

Lemma Forall2_compose : forall A (P Q R : A -> A -> Prop) a b c,
  (forall x y z, P x y -> Q y z -> R x z) -> Forall2 P a b -> Forall2 Q b c -> Forall2 R a c.
Proof.
  intros A P Q' R a b c H F. revert c. induction F as [|x y a b p F IH]; intros c G; inversion G; subst; constructor; eauto.
Qed.

(** the stages of the calculation *)
Lemma stages : forall c op T o,
  distinct c -> calculate_losses skin_model field_losses c prune has_waveform op T = Ok o ->
  exists l o1 pruned len ws lead, turns c = Some l /\ ohmic_losses c op T = Ok o1 /\
  prune op = Ok pruned /\ connection_length c = Ok len /\
  leads_loop skin_model c pruned T len l (divider_of_turn o1) (windings c) 0 (per_winding o1) = Ok (ws, lead) /\
  List.length (per_turn o1) = List.length l /\ List.length (per_turn o) = List.length l /\
  Forall2 (fun e e' => e_name e' = e_name e /\ e_ohmic e' = e_ohmic e /\
    e_skin e' <> None /\ e_proximity e' <> None) (per_turn o1) (per_turn o) /\
  (forall e, In e (per_turn o) -> exists v, e_ohmic e = Some v) /\
  resistance_of_turn o = resistance_of_turn o1 /\
  resistance_of_winding o = resistance_of_winding o1 /\ divider_of_turn o = divider_of_turn o1 /\
  (exists q1 q, total o1 = Some q1 /\ total o = Some q /\
    q == q1 + Qsum (map (fun e => match skin_part e with Some v => v | None => 0 end) (per_turn o))
         + lead + Qsum (map (fun e => match proximity_part e with Some v => v | None => 0 end) (per_turn o))) /\
  combine_all (fun t => the (t_layer t)) l (per_turn o) (layers c) = Ok (per_layer o) /\
  combine_all (fun t => the (t_section t)) l (per_turn o) (sections c) = Ok (per_section o) /\
  combine_all (fun t => Ok (t_winding t)) l (per_turn o) (map w_name (windings c)) = Ok (per_winding o).
Proof.
  intros c op T o D H. unfold calculate_losses in H. step H. rename x into o1. rename E into EO.
  step H. rename x into o2. rename E into ES. step H. rename x into o3. rename E into EP. rename H into EC.
  destruct (ohmic_core c op T o1 D EO) as (l & ET & L1 & _ & _ & _ & _ & _ & EX & _ & _ & K & q1 & Eq1 & _).
  unfold skin_losses in ES. rewrite ET, EX in ES.
  destruct op as [|[i|] op']; try discriminate. destruct (negb (has_waveform i)); [discriminate|].
  step ES. rename x into pruned. step ES. destruct x as [t2 s2]. step ES. rename x into len.
  step ES. destruct x as [ws lead]. injection ES as <-.
  unfold proximity_losses in EP. rewrite ET in EP. cbn [per_turn fst] in EP. step EP. destruct x as [t3 s3].
  injection EP as <-. unfold combine_turn_losses in EC. rewrite ET in EC.
  cbn [per_turn fst] in EC. step EC. rename x into ll. step EC. rename x into ss. step EC. rename x into wws.
  injection EC as <-.
  cbn [per_turn per_layer per_section per_winding total resistance_of_turn resistance_of_winding divider_of_turn fst snd].
  destruct (skin_loop_ok _ _ _ _ _ _ _ _ L1 E0) as [A1 B1].
  assert (L2 : List.length t2 = List.length l) by (rewrite <- L1; symmetry; eapply Forall2_length; eauto).
  destruct (proximity_loop_ok _ _ _ _ _ _ L2 E3) as [A2 B2].
  assert (L3 : List.length t3 = List.length l) by (rewrite <- L2; symmetry; eapply Forall2_length; eauto).
  assert (FF : Forall2 (fun e e' => e_name e' = e_name e /\ e_ohmic e' = e_ohmic e /\
    e_skin e' <> None /\ e_proximity e' <> None) (per_turn o1) t3).
  { refine (Forall2_compose _ _ _ _ _ _ _ _ A1 A2).
    intros a b d (a1 & a2 & a3 & s & a4) (b1 & b2 & b3 & s' & b4).
    repeat split; congruence. }
  exists l, o1, pruned, len, ws, lead. do 7 (split; [assumption || reflexivity|]).
  assert (SK : Qsum (map (fun e => match skin_part e with Some v => v | None => 0 end) t2)
    == Qsum (map (fun e => match skin_part e with Some v => v | None => 0 end) t3)).
  { clear -A2. induction A2 as [|a b t2 t3 (_ & _ & S' & _) A2 IH]; cbn [map Qsum]; [reflexivity|].
    unfold skin_part at 1 3. rewrite S', IH. reflexivity. }
  split; [exact FF|]. split.
  { intros e Ie. apply In_nth_error in Ie as (k & Ek).
    assert (Lk : (k < List.length l)%nat) by (rewrite <- L3; apply nth_error_Some; congruence).
    destruct (nth_error l k) as [t|] eqn:Et; [|apply nth_error_None in Et; lia].
    destruct (K k t Et) as (w' & x' & p' & I' & R & d & q & r & _ & _ & _ & _ & _ & _ & _ & _ & _ & _ & Ee & _).
    assert (G : forall a b k e, Forall2 (fun e e' => e_name e' = e_name e /\ e_ohmic e' = e_ohmic e /\
        e_skin e' <> None /\ e_proximity e' <> None) a b -> nth_error b k = Some e ->
        exists e0, nth_error a k = Some e0 /\ e_ohmic e = e_ohmic e0).
    { clear. intros a b k e F. revert k. induction F as [|x y a b (_ & E & _) F IH]; intros [|k] Hk; try discriminate; simpl in *.
      - injection Hk as <-. exists x. auto.
      - auto. }
    destruct (G _ _ _ _ FF Ek) as (e0 & E0' & E1'). rewrite Ee in E0'. injection E0' as <-. rewrite E1'. cbn. eauto. }
  repeat (split; [reflexivity|]). split.
  { exists q1. rewrite Eq1. cbn [eadd]. eexists. split; [reflexivity|]. split; [reflexivity|].
    rewrite B1, B2, SK. ring. }
  auto.
Qed.

(** ** C93 *)

(** by turn and by layer the losses agree, part by part *)
Theorem C93_layers : forall c op T o l,
  distinct c -> calculate_losses skin_model field_losses c prune has_waveform op T = Ok o ->
  turns c = Some l -> shared_out t_layer l (layers c) ->
  map e_name (per_layer o) = layers c /\ agree (per_turn o) (per_layer o).
Proof.
  intros c op T o l D H ET S'.
  destruct (stages c op T o D H) as (l' & o1 & pr & len & ws & lead & ET' & EO & _ & _ & _ & L1 & L2 & FF & FO & _ & _ & _ & _ & CL & CS & CW).
  rewrite ET in ET'. injection ET' as <-.
  refine (combine_all_agree t_layer _ l (per_turn o) (layers c) (per_layer o) _ L2 FO _ S' CL).
  - intros t n E. now rewrite E.
  - intros e Ie. clear -FF Ie. induction FF as [|a b x y (_ & _ & A & B) F IH]; [destruct Ie|].
    destruct Ie as [<-|Ie]; auto.
Qed.
Theorem C93_sections : forall c op T o l,
  distinct c -> calculate_losses skin_model field_losses c prune has_waveform op T = Ok o ->
  turns c = Some l -> shared_out t_section l (sections c) ->
  map e_name (per_section o) = sections c /\ agree (per_turn o) (per_section o).
Proof.
  intros c op T o l D H ET S'.
  destruct (stages c op T o D H) as (l' & o1 & pr & len & ws & lead & ET' & EO & _ & _ & _ & L1 & L2 & FF & FO & _ & _ & _ & _ & CL & CS & CW).
  rewrite ET in ET'. injection ET' as <-.
  refine (combine_all_agree t_section _ l (per_turn o) (sections c) (per_section o) _ L2 FO _ S' CS).
  - intros t n E. now rewrite E.
  - intros e Ie. clear -FF Ie. induction FF as [|a b x y (_ & _ & A & B) F IH]; [destruct Ie|].
    destruct Ie as [<-|Ie]; auto.
Qed.
(** and by turn and by winding, when every winding has turns *)
Theorem C93_windings : forall c op T o l,
  distinct c -> calculate_losses skin_model field_losses c prune has_waveform op T = Ok o ->
  turns c = Some l ->
  (forall x, In x (windings c) -> exists t, In t l /\ t_winding t = w_name x) ->
  map e_name (per_winding o) = map w_name (windings c) /\ agree (per_turn o) (per_winding o).
Proof.
  intros c op T o l D H ET S'.
  destruct (stages c op T o D H) as (l' & o1 & pr & len & ws & lead & ET' & EO & _ & _ & _ & L1 & L2 & FF & FO & _ & _ & _ & _ & CL & CS & CW).
  rewrite ET in ET'. injection ET' as <-.
  refine (combine_all_agree (fun t => Some (t_winding t)) _ l (per_turn o) _ (per_winding o) _ L2 FO _ _ CW).
  - intros t n E. now injection E as <-.
  - intros e Ie. clear -FF Ie. induction FF as [|a b x y (_ & _ & A & B) F IH]; [destruct Ie|].
    destruct Ie as [<-|Ie]; auto.
  - split; [exact D|]. split.
    + intros t It. exists (t_winding t). split; [reflexivity|].
      apply In_nth_error in It as (k & Et).
      destruct (ohmic_core c op T o1 D EO) as (l' & ET' & _ & _ & _ & _ & _ & _ & _ & _ & _ & K & _).
      rewrite ET in ET'. injection ET' as <-.
      destruct (K k t Et) as (w & x & p & _ & _ & _ & _ & _ & _ & Hx & En & _).
      rewrite <- En. apply in_map. eapply nth_error_In; eauto.
    + intros n In'. apply in_map_iff in In' as (x & <- & Ix). destruct (S' x Ix) as (t & It & Et).
      exists t. split; [exact It|congruence].
Qed.

(** one element per turn, in order, with the turn's name *)
Theorem C93_turn_names : forall c op T o l,
  distinct c -> calculate_losses skin_model field_losses c prune has_waveform op T = Ok o ->
  turns c = Some l -> map e_name (per_turn o) = map t_name l.
Proof.
  intros c op T o l D H ET.
  destruct (stages c op T o D H) as (l' & o1 & pr & len & ws & lead & ET' & EO & _ & _ & _ & L1 & L2 & FF & _).
  rewrite ET in ET'. injection ET' as <-.
  destruct (ohmic_core c op T o1 D EO) as (l' & ET' & _ & _ & _ & _ & _ & _ & _ & _ & _ & K & _).
  rewrite ET in ET'. injection ET' as <-.
  assert (A : map e_name (per_turn o) = map e_name (per_turn o1)).
  { clear -FF. induction FF as [|a b x y (E & _) F IH]; simpl; congruence. }
  rewrite A. apply nth_error_ext. intros k. rewrite !nth_error_map.
  destruct (nth_error l k) as [t|] eqn:Et.
  - destruct (K k t Et) as (w & x & p & I & R & d & q & r & _ & _ & _ & _ & _ & _ & _ & _ & _ & _ & Ee & _).
    rewrite Ee. reflexivity.
  - apply nth_error_None in Et. rewrite <- L1 in Et. apply nth_error_None in Et. now rewrite Et.
Qed.

Lemma amounts_part : forall part es, (forall e, In e es -> part e <> None) ->
  amounts part es (Qsum (map (fun e => match part e with Some v => v | None => 0 end) es)).
Proof.
  intros part es F. eexists. split; [|reflexivity].
  induction es as [|e es IH]; cbn [map]; constructor.
  - specialize (F e (or_introl eq_refl)). destruct (part e); [eexists; split; reflexivity|congruence].
  - apply IH. intros; apply F; now right.
Qed.
Lemma amounts_unique : forall part es q q', amounts part es q -> amounts part es q' -> q == q'.
Proof.
  intros part es q q' (a & A & B) (a' & A' & B'). rewrite B, B'. clear B B'. revert a' A'.
  induction A as [|e v es qs (w & E & V) F IH]; intros a' A'; inversion A' as [|? v2 ? ? (w' & E' & V') F']; subst; [reflexivity|].
  cbn [Qsum]. rewrite (IH _ F'). rewrite E in E'. injection E' as <-. rewrite <- V, <- V'. reflexivity.
Qed.

(** in the ideal geometry the total is what the turns dissipate *)
Theorem C93_total : forall c op T o,
  distinct c -> calculate_losses skin_model field_losses c prune has_waveform op T = Ok o ->
  real_geometry c = false ->
  exists q a b d, total o = Some q /\ amounts ohmic_part (per_turn o) a /\
    amounts skin_part (per_turn o) b /\ amounts proximity_part (per_turn o) d /\ q == a + b + d.
Proof.
  intros c op T o D H G.
  destruct (stages c op T o D H) as (l & o1 & pr & len & ws & lead & ET & EO & _ & CLen & LL & L1 & L2 & FF & FO & _ & _ & _ & (q1 & q & Eq1 & Eq & Vq) & _).
  destruct (C90_ideal c op T o1 D EO G) as (q1' & qs & Eq1' & Em & V1). rewrite Eq1 in Eq1'. injection Eq1' as <-.
  assert (SP : forall e, In e (per_turn o) -> skin_part e <> None /\ proximity_part e <> None).
  { clear -FF. induction FF as [|a b x y (_ & _ & A & B) F IH]; intros e Ie; [destruct Ie|].
    destruct Ie as [<-|Ie]; [|auto]. unfold skin_part, proximity_part.
    destruct (e_skin b), (e_proximity b); try congruence. split; discriminate. }
  eexists q, (Qsum qs), _, _. split; [exact Eq|]. split.
  { exists qs. split; [|reflexivity]. clear -FF Em.
    revert qs Em. induction FF as [|a b x y (_ & E & _) F IH]; intros [|v qs] Em; try discriminate; constructor.
    - cbn in Em. injection Em as E1 _. exists v. split; [unfold ohmic_part; congruence|reflexivity].
    - apply IH. cbn in Em. now injection Em. }
  split; [apply amounts_part; intros e Ie; now apply SP|].
  split; [apply amounts_part; intros e Ie; now apply SP|].
  assert (lead == 0).
  { unfold connection_length in CLen. rewrite G in CLen. cbn [negb] in CLen. injection CLen as <-.
    clear -LL. revert LL. generalize (per_winding o1) as es, (divider_of_turn o1) as ds, 0%nat as w, ws as ws', lead as ld.
    induction (windings c) as [|x xs IH]; intros es ds w ws' ld LL.
    { simpl in LL. injection LL as _ <-. reflexivity. }
    destruct es as [|e es]; [simpl in LL; injection LL as _ <-; reflexivity|].
    simpl in LL. step LL. step LL. destruct x1 as [ws2 ld2].
    assert (x0 = None).
    { clear -E. revert E. generalize (seq 0 (w_parallels x)). induction l0 as [|p ps IH]; intros E; simpl in E.
      - now injection E as <-.
      - auto. }
    subst x0. injection LL as _ <-. cbn [snd]. eapply IH; eauto. }
  rewrite Vq, V1, H0. ring.
Qed.

Lemma leads_nonneg : forall c op T len l ds xs w es ws lead,
  (forall x d f i T q, skin_model x d f i T = Ok q -> 0 <= q) ->
  leads_loop skin_model c op T len l ds xs w es = Ok (ws, lead) -> 0 <= lead.
Proof.
  intros c op T len l ds xs. induction xs as [|x xs IH]; intros w es ws lead N H.
  { simpl in H. injection H as _ <-. lra. }
  destruct es as [|e es]; [simpl in H; injection H as _ <-; lra|].
  simpl in H. step H. step H. destruct x1 as [ws2 ld2]. specialize (IH _ _ _ _ N E0).
  destruct x0 as [h|]; injection H as _ <-; [|exact IH]. cbn [snd]. rewrite sum_losses_watts.
  assert (G : forall ps acc r, lead_loop skin_model c op T len l ds x w ps acc = Ok r ->
    match acc with Some a => 0 <= watts a | None => True end ->
    match r with Some a => 0 <= watts a | None => True end).
  { induction ps as [|p ps IHp]; intros acc r G A; simpl in G; [injection G as <-; exact A|].
    destruct (Qle_bool (len w p) 0) eqn:Lp; [exact (IHp _ _ G A)|]. apply Qle_bool_false' in Lp.
    step G. destruct (divider_of c l ds w p) as [d|]; [|discriminate]. step G. step G. step G.
    apply (IHp _ _ G). apply accumulate_watts in E4. rewrite E4.
    assert (0 <= match acc with Some a => watts a | None => 0 end) by (destruct acc; [exact A|lra]).
    assert (0 <= watts (map (fun '(y, f) => (f, y * len w p)) x2)).
    { clear E4 G. unfold skin_per_meter in E3. step E3. destruct (c_harmonics x0) as [[am fr]|]; [|discriminate].
      destruct (negb _); [discriminate|]. revert E3. generalize (tl (combine am fr)). clear -N Lp.
      intros hs. revert x2. induction hs as [|[a f] hs IH]; intros x2 E3; simpl in E3.
      - injection E3 as <-. unfold watts. simpl. lra.
      - destruct (Qle_bool f 0); [discriminate|]. step E3. step E3. injection E3 as <-.
        specialize (IH _ E0). apply N in E. unfold watts in *. simpl.
        assert (0 <= x0 * len w p) by (apply Qmult_le_0_compat; lra). lra. }
    destruct acc as [a|]; [lra|]. rewrite zeros_watts. lra. }
  specialize (G _ _ _ E I). cbn iota in G. lra.
Qed.

(** with leads of any length the turns account for no more than the total *)
Theorem C93_turns_at_most : forall c op T o,
  distinct c -> calculate_losses skin_model field_losses c prune has_waveform op T = Ok o ->
  (forall x d f i T q, skin_model x d f i T = Ok q -> 0 <= q) ->
  (forall x p, In x (windings c) -> (p < w_parallels x)%nat ->
     0 <= lead_metres c x p /\ 0 <= ohm_per_metre x T) ->
  exists q a b d, total o = Some q /\ amounts ohmic_part (per_turn o) a /\
    amounts skin_part (per_turn o) b /\ amounts proximity_part (per_turn o) d /\ a + b + d <= q.
Proof.
  intros c op T o D H N G.
  destruct (stages c op T o D H) as (l & o1 & pr & len & ws & lead & ET & EO & _ & CLen & LL & L1 & L2 & FF & FO & _ & _ & _ & (q1 & q & Eq1 & Eq & Vq) & _).
  destruct (C90_turns_at_most c op T o1 D EO G) as (q1' & qs & Eq1' & Em & V1). rewrite Eq1 in Eq1'. injection Eq1' as <-.
  pose proof (leads_nonneg _ _ _ _ _ _ _ _ _ _ _ N LL) as PL.
  assert (SP : forall e, In e (per_turn o) -> skin_part e <> None /\ proximity_part e <> None).
  { clear -FF. induction FF as [|a b x y (_ & _ & A & B) F IH]; intros e Ie; [destruct Ie|].
    destruct Ie as [<-|Ie]; [|auto]. unfold skin_part, proximity_part.
    destruct (e_skin b), (e_proximity b); try congruence. split; discriminate. }
  eexists q, (Qsum qs), _, _. split; [exact Eq|]. split.
  { exists qs. split; [|reflexivity]. clear -FF Em.
    revert qs Em. induction FF as [|a b x y (_ & E & _) F IH]; intros [|v qs] Em; try discriminate; constructor.
    - cbn in Em. injection Em as E1 _. exists v. split; [unfold ohmic_part; congruence|reflexivity].
    - apply IH. cbn in Em. now injection Em. }
  split; [apply amounts_part; intros e Ie; now apply SP|].
  split; [apply amounts_part; intros e Ie; now apply SP|].
  rewrite Vq. lra.
Qed.

(** skin and proximity stages leave ohmic losses, resistances and shares alone *)
Theorem C93_ohmic_kept : forall c op T o,
  distinct c -> calculate_losses skin_model field_losses c prune has_waveform op T = Ok o ->
  exists o1, ohmic_losses c op T = Ok o1 /\
    map ohmic_part (per_turn o) = map ohmic_part (per_turn o1) /\
    resistance_of_turn o = resistance_of_turn o1 /\
    resistance_of_winding o = resistance_of_winding o1 /\ divider_of_turn o = divider_of_turn o1.
Proof.
  intros c op T o D H.
  destruct (stages c op T o D H) as (l & o1 & pr & len & ws & lead & ET & EO & _ & CLen & LL & L1 & L2 & FF & FO & A & B & C & _).
  exists o1. split; [exact EO|]. split; [|auto].
  clear -FF. induction FF as [|a b x y (_ & E & _) F IH]; simpl; [reflexivity|]. unfold ohmic_part at 1 3. congruence.
Qed.

(** the total of the elements by turn is the sum of their parts *)
Lemma elements_total_parts : forall es a b d, amounts ohmic_part es a -> amounts skin_part es b -> amounts proximity_part es d ->
  exists s, elements_total es = Some s /\ s == a + b + d.
Proof.
  intros es a b d (la & A & EA) (lb & B & EB) (ld & P & ED).
  unfold elements_total, esum.
  assert (G : forall x, exists s, fold_left eadd (map element_total es) (Some x) = Some s /\ s == x + (Qsum la + Qsum lb + Qsum ld)).
  { clear EA EB ED. revert lb ld B P. induction A as [|e va es la (v & E & V) F IH]; intros lb ld B P x.
    - inversion B; subst. inversion P; subst. exists x. split; [reflexivity|]. cbn [Qsum]. ring.
    - inversion B as [|? vb ? lb' (vb' & E2 & V2) B']; subst. inversion P as [|? vd ? ld' (vd' & E3 & V3) P']; subst.
      cbn [map fold_left]. unfold ohmic_part in E. unfold skin_part in E2. unfold proximity_part in E3.
      destruct (e_skin e) as [sk|] eqn:ES; [|discriminate]. destruct (e_proximity e) as [pr|] eqn:EP; [|discriminate].
      cbn in E2, E3. injection E2 as E2. injection E3 as E3.
      assert (ET : element_total e = Some (v + (sum_losses sk + sum_losses pr))) by (unfold element_total; rewrite E, ES, EP; reflexivity).
      rewrite ET. cbn [eadd]. destruct (IH lb' ld' B' P' (x + (v + (sum_losses sk + sum_losses pr)))) as (s & S1 & S2).
      exists s. split; [exact S1|]. rewrite S2. cbn [Qsum]. rewrite !sum_losses_watts, E2, E3, <- V, <- V2, <- V3. ring. }
  destruct (G 0) as (s & S1 & S2). exists s. split; [exact S1|]. rewrite S2, EA, EB, ED. ring.
Qed.

(** in the ideal geometry the total that is asked of the elements by turn, by
    layer, by section or by winding is the total reported *)
Theorem C93_elements_total : forall c op T o es,
  distinct c -> calculate_losses skin_model field_losses c prune has_waveform op T = Ok o ->
  real_geometry c = false -> es = per_turn o \/ agree (per_turn o) es ->
  exists q s, total o = Some q /\ elements_total es = Some s /\ q == s.
Proof.
  intros c op T o es D H G HE. destruct (C93_total c op T o D H G) as (q & a & b & d & E & A & B & P & V).
  assert (X : exists a' b' d', amounts ohmic_part es a' /\ amounts skin_part es b' /\ amounts proximity_part es d' /\ a' == a /\ b' == b /\ d' == d).
  { destruct HE as [-> |AG]; [exists a, b, d; split; [exact A|]; split; [exact B|]; split; [exact P|]; split; [|split]; reflexivity|].
    destruct (AG ohmic_part (or_introl eq_refl)) as (a' & A1 & A2). destruct (AG skin_part (or_intror (or_introl eq_refl))) as (b' & B1 & B2).
    destruct (AG proximity_part (or_intror (or_intror (or_introl eq_refl)))) as (d' & P1 & P2).
    exists a', b', d'. split; [exact A2|]. split; [exact B2|]. split; [exact P2|]. split; [exact (amounts_unique _ _ _ _ A1 A)|]. split; [exact (amounts_unique _ _ _ _ B1 B) | exact (amounts_unique _ _ _ _ P1 P)]. }
  destruct X as (a' & b' & d' & A' & B' & P' & VA & VB & VP). destruct (elements_total_parts es a' b' d' A' B' P') as (s & S1 & S2).
  exists q, s. split; [exact E|]. split; [exact S1|]. rewrite V, S2, VA, VB, VP. reflexivity.
Qed.

(** the operating point reported is the one given, not the pruned one *)
Theorem C93_operating_point_kept : forall c op T o,
  distinct c -> calculate_losses skin_model field_losses c prune has_waveform op T = Ok o -> excitations o = op.
Proof.
  intros c op T o D H. unfold calculate_losses in H. step H. rename x into o1. rename E into EO.
  step H. rename x into o2. rename E into ES. step H. rename x into o3. rename E into EP. rename H into EC.
  destruct (ohmic_core c op T o1 D EO) as (l & ET & _ & _ & _ & _ & _ & _ & EX & _).
  assert (X2 : excitations o2 = op).
  { unfold skin_losses in ES. rewrite ET, EX in ES. destruct op as [|[i|] op']; try discriminate.
    destruct (negb (has_waveform i)); [discriminate|]. step ES. step ES. step ES. step ES. injection ES as <-. reflexivity. }
  assert (X3 : excitations o3 = op).
  { unfold proximity_losses in EP. rewrite ET in EP. step EP. injection EP as <-. exact X2. }
  unfold combine_turn_losses in EC. rewrite ET in EC. step EC. step EC. step EC. injection EC as <-. exact X3.
Qed.
End Losses.

(** ** Witness *)
Definition skin0 (x : winding) (dc : ext) (f i T : Q) : outcome Q := Ok (i * i * (1 # 1000)).
Definition field0 (k : nat) (x : winding) : outcome (list (Q * Q) * option (list (Q * Q))) :=
  Ok ([(1 # 100, 100000)], None).
Definition op0 : operating_point :=
  [Some (mkCurrent (Some 3) None (Some ([0; 4], [0; 100000])));
   Some (mkCurrent (Some 5) None (Some ([0; 7], [0; 100000])))].
Definition run0 (c : coil) := calculate_losses skin0 field0 c (fun o => Ok o) (fun _ => true) op0 20.

Definition ohm := mkMaterial 1 0 20.
Definition wu := mkWinding "primary" 2 2 ohm 1 false None.
Definition wv := mkWinding "secondary" 1 1 ohm 1 false (Some [Some 1; None]).
Definition tu k p := mkTurn k "primary" p (Some 1) (Some "layer 0") (Some "section 0").
Definition tv := mkTurn "s0" "secondary" 0 (Some 3) (Some "layer 1") (Some "section 1").
Definition lu := [tu "p0" 0; tu "p1" 0; tu "q0" 1; tu "q1" 1; tv].
Definition routed := mkCoil [wu; wv] (Some lu)
  [mkSpace "primary" 0 true (Some 1); mkSpace "primary" 1 true (Some 1); mkSpace "secondary" 0 true (Some 7)]
  ["layer 0"; "layer 1"] ["section 0"; "section 1"] true.
Definition plain := mkCoil [wu; wv] (Some lu) [] ["layer 0"; "layer 1"] ["section 0"; "section 1"] false.
Example C93_witness : exists o,
  run0 plain = Ok o /\ distinct plain /\ turns plain = Some lu /\
  shared_out t_layer lu (layers plain) /\ shared_out t_section lu (sections plain) /\
  (forall x, In x (windings plain) -> exists t, In t lu /\ t_winding t = w_name x) /\
  option_map Qred (total o) = option_map Qred (elements_total (per_turn o)) /\
  option_map Qred (total o) = Some (84233 # 1000).
Proof.
  eexists. split; [vm_compute; reflexivity|].
  split; [unfold distinct; cbn; repeat constructor; cbn; intuition discriminate|]. split; [reflexivity|].
  split; [|split; [|split; [|split; vm_compute; reflexivity]]].
  - split; [repeat constructor; cbn; intuition discriminate|]. split.
    + intros t I. cbn in I. destruct I as [<-|[<-|[<-|[<-|[<-|[]]]]]]; eexists; cbn; split; try reflexivity; auto.
    + intros n [<-|[<-|[]]]; [exists (tu "p0" 0)|exists tv]; cbn; auto 8.
  - split; [repeat constructor; cbn; intuition discriminate|]. split.
    + intros t I. cbn in I. destruct I as [<-|[<-|[<-|[<-|[<-|[]]]]]]; eexists; cbn; split; try reflexivity; auto.
    + intros n [<-|[<-|[]]]; [exists (tu "p0" 0)|exists tv]; cbn; auto 8.
  - intros x [<-|[<-|[]]]; [exists (tu "p0" 0)|exists tv]; cbn; intuition.
Qed.

(** ** With real geometry *)

(** what the leads dissipate is in the total and in no winding: the losses by
    winding add up to less than the total *)
Theorem C93_leads_in_no_winding_refuted : exists skin field c prune wave op T o q s,
  distinct c /\ calculate_losses skin field c prune wave op T = Ok o /\
  turns c = Some lu /\
  (forall x, In x (windings c) -> exists t, In t lu /\ t_winding t = w_name x) /\
  total o = Some q /\ elements_total (per_winding o) = Some s /\ s < q.
Proof.
  exists skin0, field0, routed, (fun o => Ok o), (fun _ => true), op0, 20. eexists _, _, _.
  split; [unfold distinct; cbn; repeat constructor; cbn; intuition discriminate|].
  split; [vm_compute; reflexivity|]. split; [reflexivity|]. split.
  { intros x [<-|[<-|[]]]; [exists (tu "p0" 0)|exists tv]; cbn; intuition. }
  split; [reflexivity|]. split; [vm_compute; reflexivity|]. reflexivity.
Qed.

(** a conduction layer that has no turns gets losses nobody computed *)
Definition spare := mkCoil [wu; wv] (Some lu) [] ["layer 0"; "layer 1"; "layer 2"]
  ["section 0"; "section 1"] false.
Theorem C93_empty_layer_refuted : exists skin field c prune wave op T o e,
  calculate_losses skin field c prune wave op T = Ok o /\ In e (per_layer o) /\ e_ohmic e = None.
Proof.
  exists skin0, field0, spare, (fun o => Ok o), (fun _ => true), op0, 20. eexists _, _.
  split; [vm_compute; reflexivity|]. split; [cbn; right; right; left; reflexivity|reflexivity].
Qed.

Print Assumptions C93_layers.
Print Assumptions C93_sections.
Print Assumptions C93_windings.
Print Assumptions C93_turn_names.
Print Assumptions C93_total.
Print Assumptions C93_turns_at_most.
Print Assumptions C93_leads_in_no_winding_refuted.
