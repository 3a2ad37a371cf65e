(** C01, C02, C43: how the turns of a winding are shared out over sections and
    layers. *)
From Coq Require Import ZArith QArith Qround Qabs List String Bool Lia Lqa Arith.
From Verif Require Import Base QAux CoilSplitModel CoilSplitProofs.
Import ListNotations.
Open Scope Q_scope.

(** * Specification vocabulary *)

(** A proportion of a parallel that stands for a whole, nonnegative number of
    the winding's [N] turns. *)
Definition whole (N : Z) (q : Q) : Prop := exists z, (0 <= z)%Z /\ q * inject_Z N == inject_Z z.

(** A slot (a section or a layer): its announced number of physical turns and,
    for each parallel, the proportion of that parallel it holds. *)
Definition slot : Type := (Z * list Q)%type.

(** The slot holds whole turns of [P] parallels and announces as many turns as
    it holds. *)
Definition honest (N : Z) (P : nat) (o : slot) : Prop :=
  List.length (snd o) = P /\ Forall (whole N) (snd o) /\ inject_Z (fst o) == inject_Z N * Qsum (snd o).

(** What all the slots together hold of parallel [p]. *)
Definition held (p : nat) (out : list slot) : Q := Qsum (map (fun o => nth p (snd o) 0) out).

(** The number of whole turns still to be wound. *)
Definition physical_turns (N : Z) (rem : list Q) : Q := inject_Z N * Qsum rem.

(** The sections of one winding, in wound order. *)
Definition sections_in (w : nat) {A : Type} (l : list (nat * A)) : list A :=
  map snd (filter (fun x => Nat.eqb (fst x) w) l).

(** * From whole proportions to turn counts *)
Lemma whole_counts : forall N rem, (0 < N)%Z -> Forall (whole N) rem ->
  exists ks, wholes N rem ks /\ Forall (fun k => 0 <= k)%Z ks.
Proof.
  intros N rem HN H. pose proof (NQ N HN). induction H as [|r rem (z & Hz & E) _ (ks & A & B)].
  - exists []. split; constructor.
  - exists (z :: ks). split; constructor; try assumption. unfold is_whole. rewrite <- E. field. lra.
Qed.

Lemma wholes_whole : forall N l ts, (0 < N)%Z -> wholes N l ts -> Forall (fun t => 0 <= t)%Z ts -> Forall (whole N) l.
Proof.
  intros N l ts HN H. pose proof (NQ N HN). induction H; intros Ht; inversion Ht; subst; constructor; auto.
  exists y. split; [assumption|]. unfold is_whole in H. rewrite H. field. lra.
Qed.

Lemma got_honest : forall N P out tss, (0 < N)%Z -> Forall2 (slot_got N) out tss ->
  Forall (fun ts => List.length ts = P) tss -> Forall (honest N P) out.
Proof.
  intros N P out tss HN H. induction H as [|o ts out tss (A & B & C) _ IH]; intros Hl; constructor.
  - inversion Hl; subst. split; [eapply wholes_length; eassumption|]. split; [eapply wholes_whole; eassumption|].
    rewrite (Qsum_wholes N _ _ HN A), C. reflexivity.
  - inversion Hl; auto.
Qed.

Lemma got_held : forall N rem ks out tss kf p, (0 < N)%Z -> wholes N rem ks ->
  Forall2 (slot_got N) out tss ->
  (nth p kf 0 + Zsum (map (fun ts => nth p ts 0) tss) = nth p ks 0)%Z -> Forall (fun k => k = 0%Z) kf ->
  held p out == nth p rem 0.
Proof.
  intros N rem ks out tss kf p HN Hw Ho Hc Hz. pose proof (NQ N HN) as P. unfold held.
  pose proof (Qsum_column N out tss p HN Ho) as E.
  assert (Hp : nth p kf 0%Z = 0%Z).
  { destruct (nth_in_or_default p kf 0%Z) as [Hi|Hi]; [|assumption]. rewrite Forall_forall in Hz. auto. }
  rewrite Hp in Hc. rewrite Z.add_0_l in Hc. rewrite Hc in E.
  pose proof (wholes_nth N HN _ _ p Hw) as F. unfold is_whole in F. rewrite F.
  rewrite <- E. field. lra.
Qed.

(** * C01 *)

(** Splitting what remains of a winding over any number of slots hands out every
    remaining turn of every parallel exactly once, in whole turns, and each slot
    announces exactly the turns it holds - whatever the style, and whatever the
    relative sizes of the slots as long as the last one is not scaled down. *)
Theorem C01_split_hands_out_every_turn_once : forall N rem style rels,
  (0 < N)%Z -> Forall (whole N) rem ->
  rels <> [] -> Forall (fun r => 0 <= r) rels -> 1 <= last rels 0 ->
  exists out final,
    split_slots 0 (List.length rels) N rem style (map (fun r => (r, None)) rels) = Ok (out, final) /\
    List.length out = List.length rels /\
    Forall (honest N (List.length rem)) out /\
    (forall p, held p out == nth p rem 0) /\
    check_assigned final = Ok tt.
Proof.
  intros N rem style rels HN Hrem Hne Hr Hlast.
  destruct (whole_counts N rem HN Hrem) as (ks & Hw & Hk).
  destruct (split_none_spec N HN (map (fun r => (r, None)) rels) 0 (List.length rels) rem ks style)
    as (out & final & tss & kf & E & Ho & Hl & Hf & Hkf & Hlf & Hc & Hz); try assumption.
  - now rewrite map_length.
  - clear -Hr. induction Hr; simpl; constructor; auto.
  - assert (Z0 : Forall (fun k => k = 0%Z) kf).
    { apply (Hz (0, None)).
      - destruct rels; [congruence|discriminate].
      - assert (El : last (map (fun r => (r, @None Z)) rels) (0, None) = (last rels 0, None)).
        { clear. induction rels as [|a [|b t] IH]; try reflexivity.
          change (last (map (fun r => (r, @None Z)) (a :: b :: t)) (0, None)) with
                 (last (map (fun r => (r, @None Z)) (b :: t)) (0, None)).
          change (last (a :: b :: t) 0) with (last (b :: t) 0). exact IH. }
        rewrite El. exact Hlast. }
    exists out, final. split; [exact E|].
    assert (Hlen : List.length out = List.length rels).
    { clear -E. set (slots := List.length rels) in E. clearbody slots. revert E.
      generalize 0%nat as i. revert rem out final.
      induction rels as [|a t IH]; intros rem out final i E; simpl in E.
      - injection E as <- <-. reflexivity.
      - destruct (get_parallels_proportions _ _ _ _ _ _ _) as [[ph pr]| | |]; try discriminate. cbn [bind] in E.
        destruct (split_slots (S i) _ _ _ _ _) as [[o f]| | |] eqn:E2; try discriminate. cbn [bind] in E.
        injection E as <- <-. simpl. f_equal. eapply IH. exact E2. }
    split; [exact Hlen|]. split; [|split].
    + rewrite (wholes_length N _ _ Hw). eapply got_honest; eassumption.
    + intros p. eapply got_held; try eassumption. apply Hc.
    + unfold check_assigned. rewrite zero_list_checks; [reflexivity|].
      eapply zero_wholes; eassumption.
Qed.

(** Nontrivial case: 7 turns, 3 parallels of which one is half used up, over 4
    slots of different relative sizes. *)
Example C01_witness : exists out final,
  split_slots 0 4 7 [1; 4#7; 1] WIND_BY_CONSECUTIVE_PARALLELS
    [(13#10, None); (9#10, None); (8#10, None); (2, None)] = Ok (out, final) /\
  map fst out = [7; 5; 3; 3]%Z.
Proof. eexists. eexists. split; vm_compute; reflexivity. Qed.

(** The same for a whole coil, any interleaving and any relative sizes of the
    sections, as long as the last section of each winding is not scaled down. *)
Theorem C01_coil_winds_every_turn_once : forall n coil sections,
  (forall w, In w (map fst sections) -> (w < n)%nat) ->
  (forall w, (w < n)%nat -> (0 < turns (coil w))%Z /\
     sections_of (coil w) = List.length (sections_in w sections) /\
     sections_in w sections <> [] /\ Forall (fun r => 0 <= r) (sections_in w sections) /\
     1 <= last (sections_in w sections) 0) ->
  exists out, wind_coil_sections n coil sections = Ok out /\
    map fst out = map fst sections /\
    forall w, (w < n)%nat ->
      Forall (honest (turns (coil w)) (parallels (coil w))) (sections_in w out) /\
      forall p, (p < parallels (coil w))%nat -> held p (sections_in w out) == 1.
Proof.
  intros n coil sections Hin Hw.
  set (rem := fun w => repeat 1 (parallels (coil w))).
  assert (Hall : forall w, exists out final,
     split_slots 0 (sections_of (coil w)) (turns (coil w)) (rem w) (style (coil w))
       (map (fun r => (r, None)) (of_winding w sections)) = Ok (out, final) /\
     ((w < n)%nat -> Forall (honest (turns (coil w)) (parallels (coil w))) out /\
        (forall p, (p < parallels (coil w))%nat -> held p out == 1) /\
        check_assigned final = Ok tt)).
  { intros w. destruct (lt_dec w n) as [Hlt|Hge].
    - destruct (Hw w Hlt) as (HN & Hs & Hne & Hpos & Hl). rewrite Hs.
      change (of_winding w sections) with (sections_in w sections).
      destruct (C01_split_hands_out_every_turn_once (turns (coil w)) (rem w) (style (coil w)) (sections_in w sections))
        as (out & final & E & _ & Ho & Hh & Hc); try assumption.
      + apply Forall_repeat. exists (turns (coil w)). split; [lia|]. ring.
      + exists out, final. split; [exact E|]. intros _.
        unfold rem in Ho. rewrite repeat_length in Ho.
        split; [assumption|]. split; [|assumption].
        intros p Hp. rewrite Hh. unfold rem. rewrite nth_repeat_lt by assumption. reflexivity.
    - assert (Hc : of_winding w sections = []).
      { unfold of_winding. clear -Hin Hge. induction sections as [|[v x] t IH]; [reflexivity|].
        simpl. destruct (Nat.eqb_spec v w) as [->|Hv].
        - exfalso. apply Hge. apply Hin. now left.
        - apply IH. intros u Hu. apply Hin. now right. }
      rewrite Hc. simpl. exists [], (rem w). split; [reflexivity|]. intros; lia. }
  destruct (wind_sections_each coil sections rem (fun _ => O)) as (out & final & E & Hm & He).
  { intros w. destruct (Hall w) as (o & f & Ew & _). eauto. }
  assert (Hchk : check_all_assigned n final = Ok tt).
  { unfold check_all_assigned.
    assert (F : forallb (fun w => forallb (fun r => Qeq_bool (roundFloat r 9) 0) (final w)) (seq 0 n) = true).
    { apply forallb_forall. intros w Hiw. apply in_seq in Hiw.
      destruct (Hall w) as (o & f & Ew & Hrest). specialize (He w). rewrite Ew in He. injection He as -> ->.
      destruct Hrest as (_ & _ & Hc); [lia|]. unfold check_assigned in Hc.
      destruct (forallb _ (final w)); [reflexivity|discriminate]. }
    now rewrite F. }
  exists out. split.
  { unfold wind_coil_sections. fold rem. rewrite E. cbn [bind]. rewrite Hchk. reflexivity. }
  split; [assumption|].
  intros w Hlt. destruct (Hall w) as (o & f & Ew & Hrest). specialize (He w). rewrite Ew in He.
  injection He as -> ->. destruct (Hrest Hlt) as (A & B & _). split; assumption.
Qed.

(** However the sections of the windings are interleaved in a rectangular window
    (or a round one wound contiguously), winding the sections succeeds, the
    sections come in the requested order, and every parallel of every winding is
    wound exactly once. *)
Theorem C01_interleaved_coil_winds_every_turn_once : forall n coil order,
  (forall w, In w order -> (w < n)%nat) ->
  (forall w, (w < n)%nat -> In w order /\ (0 < turns (coil w))%Z /\
                            sections_of (coil w) = count_occ Nat.eq_dec order w) ->
  exists out, wind_rectangular_sections n coil order = Ok out /\
    map fst out = order /\
    forall w, (w < n)%nat ->
      Forall (honest (turns (coil w)) (parallels (coil w))) (sections_in w out) /\
      forall p, (p < parallels (coil w))%nat -> held p (sections_in w out) == 1.
Proof.
  intros n coil order Hin Hw.
  set (sections := map (fun w => (w, 1)) order).
  assert (Hof : forall w, sections_in w sections = repeat 1 (count_occ Nat.eq_dec order w)).
  { intros w. unfold sections, sections_in. clear. induction order as [|a t IH]; simpl; [reflexivity|].
    destruct (Nat.eqb_spec a w); destruct (Nat.eq_dec a w); try congruence; simpl; rewrite IH; reflexivity. }
  assert (Hfst : map fst sections = order) by (unfold sections; rewrite map_map; simpl; apply map_id).
  destruct (C01_coil_winds_every_turn_once n coil sections) as (out & E & Hm & He).
  - now rewrite Hfst.
  - intros w Hlt. destruct (Hw w Hlt) as (Hi & HN & Hs). rewrite Hof, repeat_length.
    apply (count_occ_In Nat.eq_dec) in Hi. split; [assumption|]. split; [assumption|].
    set (k := count_occ Nat.eq_dec order w) in *. clearbody k. destruct k; [lia|].
    split; [discriminate|]. split; [apply Forall_repeat; lra|].
    clear. induction k; [simpl; lra|]. exact IHk.
  - exists out. rewrite Hfst in Hm. auto.
Qed.

(** Nontrivial case: two windings interleaved 0 1 0 1 1, the second with three
    parallels and three sections. *)
Definition example_coil (w : nat) : winding_plan :=
  match w with
  | O => {| turns := 9; parallels := 1; style := WIND_BY_CONSECUTIVE_TURNS; sections_of := 2 |}
  | _ => {| turns := 4; parallels := 3; style := WIND_BY_CONSECUTIVE_PARALLELS; sections_of := 3 |}
  end.
Example C01_interleaved_witness :
  (forall w, In w [0; 1; 0; 1; 1]%nat -> (w < 2)%nat) /\
  (forall w, (w < 2)%nat -> In w [0; 1; 0; 1; 1]%nat /\ (0 < turns (example_coil w))%Z /\
     sections_of (example_coil w) = count_occ Nat.eq_dec [0; 1; 0; 1; 1]%nat w) /\
  exists out, wind_rectangular_sections 2 example_coil [0; 1; 0; 1; 1]%nat = Ok out /\
    map (fun o => fst (snd o)) out = [5; 6; 4; 3; 3]%Z.
Proof.
  split; [|split].
  - simpl. intros w H. lia.
  - intros w H. destruct w as [|[|w]]; [| |lia]; simpl; repeat split; auto.
  - eexists. split; vm_compute; reflexivity.
Qed.

(** In a round window wound in overlapping rings the claim fails: only the very
    last section of the group is topped up, so a winding whose last section is
    not that one is left with unwound turns and the whole call throws.  Witness:
    two 10-turn windings interleaved 0 1 0 1 in rings of equal thickness. *)
Theorem C01_round_overlapping_refuted : exists n coil radius order why,
  (forall w, (w < n)%nat -> In w (map fst order) /\ (0 < turns (coil w))%Z /\
     sections_of (coil w) = count_occ Nat.eq_dec (map fst order) w /\
     choose_section_style None (turns (coil w)) (Z.of_nat (parallels (coil w))) (Z.of_nat (sections_of (coil w)))
       = Ok (style (coil w))) /\
  Forall (fun s => 0 < snd s) order /\ Qsum (map snd order) <= radius /\
  wind_round_overlapping_sections n coil radius order = Throw why.
Proof.
  exists 2%nat, (fun _ => {| turns := 10; parallels := 1; style := WIND_BY_CONSECUTIVE_PARALLELS; sections_of := 2 |}),
    4, [(0%nat, 1); (1%nat, 1); (0%nat, 1); (1%nat, 1)].
  eexists. split; [|split; [|split]].
  - intros w H. destruct w as [|[|w]]; [| |lia]; vm_compute; auto 10.
  - repeat constructor.
  - vm_compute. discriminate.
  - vm_compute. reflexivity.
Qed.

(** With a single section per winding the same call is safe. *)
Theorem C01_round_overlapping_one_section_each : forall n coil radius order,
  NoDup (map fst order) -> order <> [] ->
  (forall w, In w (map fst order) <-> (w < n)%nat) ->
  (forall w, (w < n)%nat -> (0 < turns (coil w))%Z /\ sections_of (coil w) = 1%nat) ->
  Forall (fun s => 0 < snd s) order -> Qsum (map snd order) <= radius ->
  exists out, wind_round_overlapping_sections n coil radius order = Ok out /\
    map fst out = map fst order /\
    forall w, (w < n)%nat ->
      Forall (honest (turns (coil w)) (parallels (coil w))) (sections_in w out) /\
      forall p, (p < parallels (coil w))%nat -> held p (sections_in w out) == 1.
Proof.
  intros n coil radius order Hnd Hne Hin Hcoil Hpos Hsum.
  unfold wind_round_overlapping_sections.
  set (ws := map fst order). set (areas := section_areas radius (map snd order)).
  assert (Hareas : Forall (fun a => 0 < a) areas).
  { unfold areas. clear -Hpos Hsum. revert radius Hsum. induction Hpos as [|[w s] t Hs Ht IH]; intros radius Hsum; simpl in *; constructor.
    - assert (0 <= Qsum (map snd t)).
      { apply Qsum_nonneg. clear -Ht. induction Ht; simpl; constructor; [lra|assumption]. }
      nra.
    - apply IH. lra. }
  assert (Hla : List.length areas = List.length ws).
  { unfold areas, ws. rewrite map_length. clear. revert radius. induction order; intros; simpl; auto. }
  set (all := combine areas ws).
  set (rels := get_length_proportions all).
  assert (Hrels : Forall (fun r => 1 <= r) rels /\ List.length rels = List.length ws).
  { unfold rels, get_length_proportions.
    assert (Havg : forall x w, In (x, w) all -> x / average_of w all == 1).
    { intros x w Hi. unfold average_of.
      assert (El : lengths_of w all = [x]).
      { unfold all in *. unfold lengths_of. clear -Hnd Hi. fold ws in Hnd. clearbody ws areas.
        revert areas Hi. induction ws as [|v t IH]; intros areas Hi; destruct areas as [|a at_]; simpl in *; try contradiction.
        inversion Hnd; subst. destruct Hi as [Hi|Hi].
        - injection Hi as -> ->. rewrite Nat.eqb_refl. simpl. f_equal.
          assert (H : forall l : list Q, filter (fun '(_, i) => Nat.eqb i w) (combine l t) = []).
          { clear -H1. induction t as [|u t IH]; intros l; destruct l; simpl; try reflexivity.
            destruct (Nat.eqb_spec u w) as [->|]; [exfalso; apply H1; now left|]. apply IH. intros Hx. apply H1. now right. }
          now rewrite H.
        - assert (Hv : v <> w). { intros ->. apply H1. apply in_combine_r in Hi. exact Hi. }
          destruct (Nat.eqb_spec v w); [congruence|]. auto. }
      rewrite El. simpl. assert (0 < x).
      { rewrite Forall_forall in Hareas. apply Hareas. eapply in_combine_l. exact Hi. }
      field. lra. }
    assert (G : forall l, incl l all -> Forall (fun r => 1 <= r) (length_proportions_from all l) /\
                 List.length (length_proportions_from all l) = List.length l).
    { induction l as [|[x w] t IH]; intros Hi; [split; [constructor|reflexivity]|].
      assert (Hx := Havg x w (Hi _ (or_introl eq_refl))).
      destruct t as [|y t'].
      - simpl. split; [|reflexivity]. constructor; [|constructor]. rewrite Hx. lra.
      - destruct IH as [A B]; [intros z Hz; apply Hi; now right|].
        cbn [length_proportions_from]. split.
        + constructor; [rewrite Hx; lra|exact A].
        + cbn [List.length] in *. f_equal. exact B. }
    destruct (G all (incl_refl _)) as [A B]. split; [exact A|]. rewrite B.
    unfold all. rewrite combine_length. lia. }
  destruct Hrels as [Hge Hlr].
  assert (Hfst : map fst (combine ws rels) = ws).
  { clear -Hlr. clearbody ws rels. revert rels Hlr. induction ws; intros rels Hlr; destruct rels; try discriminate; simpl; [reflexivity|].
    f_equal. apply IHws. simpl in Hlr. congruence. }
  assert (Hone : forall w, (w < n)%nat -> exists r, sections_in w (combine ws rels) = [r] /\ 1 <= r).
  { intros w Hlt. apply Hin in Hlt. fold ws in Hlt, Hnd. clear -Hlt Hnd Hlr Hge. clearbody ws rels.
    revert rels Hlr Hge. induction ws as [|v t IH]; intros rels Hlr Hge; [contradiction|].
    destruct rels as [|r rt]; [discriminate|]. inversion Hnd; subst. inversion Hge; subst.
    unfold sections_in. cbn [combine filter fst].
    destruct (Nat.eqb_spec v w) as [->|Hv].
    - exists r. split; [|assumption]. cbn [map snd]. f_equal.
      assert (Hn : forall l, filter (fun x : nat * Q => Nat.eqb (fst x) w) (combine t l) = []).
      { clear -H1. induction t as [|u t IH]; intros l; destruct l; simpl; try reflexivity.
        destruct (Nat.eqb_spec u w) as [->|]; [exfalso; apply H1; now left|]. apply IH. intros Hx. apply H1. now right. }
      now rewrite Hn.
    - destruct Hlt as [|Hlt]; [congruence|]. apply IH; auto. }
  destruct (C01_coil_winds_every_turn_once n coil (combine ws rels)) as (out & E & Hm & He).
  - rewrite Hfst. intros w. apply Hin.
  - intros w Hlt. destruct (Hone w Hlt) as (r & Er & Hr). destruct (Hcoil w Hlt) as (HN & Hs).
    rewrite Er. split; [assumption|]. split; [exact Hs|]. split; [discriminate|].
    split; [constructor; [lra|constructor]|]. exact Hr.
  - exists out. rewrite Hfst in Hm. auto.
Qed.

Example C01_round_witness : exists out,
  wind_round_overlapping_sections 2
    (fun w => {| turns := 10 + Z.of_nat w; parallels := 2; style := WIND_BY_CONSECUTIVE_TURNS; sections_of := 1 |})
    5 [(1%nat, 2); (0%nat, 1)] = Ok out /\ map (fun o => fst (snd o)) out = [22; 20]%Z.
Proof. eexists. split; vm_compute; reflexivity. Qed.

(** ** Even sharing *)

(** Without relative sizes, two slots of the same winding never differ by more
    than one turn: in total when winding turn by turn, and in each parallel when
    winding parallel by parallel. (The bound on the number of slots is where the
    rounding to ten decimals in the code starts to matter.) *)
Theorem C01_even_sharing : forall N rem st slots out final o1 o2,
  (0 < N)%Z -> Forall (whole N) rem -> (Z.of_nat slots < 20000000000)%Z ->
  split_evenly slots N rem st = Ok (out, final) -> In o1 out -> In o2 out ->
  match st with
  | WIND_BY_CONSECUTIVE_TURNS => (Z.abs (fst o1 - fst o2) <= 1)%Z
  | WIND_BY_CONSECUTIVE_PARALLELS =>
      forall p, (p < List.length rem)%nat ->
        Qabs (nth p (snd o1) 0 - nth p (snd o2) 0) <= 1 / inject_Z N
  end.
Proof.
  intros N rem st slots out final o1 o2 HN Hrem Hslots E H1 H2. pose proof (NQ N HN) as P.
  destruct (whole_counts N rem HN Hrem) as (ks & Hw & Hk).
  pose proof (split_balanced N HN slots 0 slots rem ks st out final eq_refl ltac:(lia) Hw Hk E) as B.
  destruct slots as [|s']; [simpl in E; injection E as <- <-; contradiction|].
  pose proof (cdiv_near) as C.
  destruct st.
  - rewrite Forall_forall in B. pose proof (B _ H1) as A1. pose proof (B _ H2) as A2. cbn beta in A1, A2.
    pose proof (C (Zsum ks) (Z.of_nat (S s')) ltac:(lia)). lia.
  - intros p Hp. rewrite Forall_forall in B. pose proof (B _ H1 p) as A1. pose proof (B _ H2 p) as A2. cbn beta in A1, A2.
    pose proof (C (nth p ks 0%Z) (Z.of_nat (S s')) ltac:(lia)) as Cn.
    (* the proportions are those whole counts *)
    destruct (split_none_spec N HN (repeat (1, None) (S s')) 0 (S s') rem ks WIND_BY_CONSECUTIVE_PARALLELS)
      as (out' & final' & tss & kf & E' & Ho & _); try assumption.
    { now rewrite repeat_length. }
    { apply Forall_repeat. simpl. split; [lra|reflexivity]. }
    unfold split_evenly in E. rewrite E in E'. injection E' as <- <-.
    assert (W : forall o, In o out -> exists t, nth p (snd o) 0 == inject_Z t / inject_Z N /\ turns_in N p o = t).
    { intros o Hi. clear -Ho Hi HN. induction Ho as [|a ts out tss Ha Ho IH]; [contradiction|].
      destruct Hi as [->|Hi]; [|auto]. destruct Ha as (Ha & _).
      exists (nth p ts 0%Z). pose proof (wholes_nth N HN _ _ p Ha) as Hn. split; [exact Hn|].
      unfold turns_in. now apply whole_turns_whole. }
    destruct (W _ H1) as (t1 & E1 & T1). destruct (W _ H2) as (t2 & E2 & T2).
    rewrite T1 in A1. rewrite T2 in A2. rewrite E1, E2.
    apply Qabs_Qle_condition.
    assert (D : inject_Z t1 / inject_Z N - inject_Z t2 / inject_Z N == inject_Z (t1 - t2) / inject_Z N).
    { unfold Z.sub. rewrite inject_Z_plus, inject_Z_opp. field. lra. }
    rewrite D. split.
    + apply Qle_div_iff; [assumption|].
      assert (Em : - (1 / inject_Z N) * inject_Z N == inject_Z (-1)) by (change (inject_Z (-1)) with (-1); field; lra).
      rewrite Em, inj_le. lia.
    + apply Qdiv_le_iff; [assumption|].
      assert (Em : 1 / inject_Z N * inject_Z N == inject_Z 1) by (change (inject_Z 1) with 1; field; lra).
      rewrite Em, inj_le. lia.
Qed.

Example C01_even_witness : exists out final,
  split_evenly 4 10 [1; 1] WIND_BY_CONSECUTIVE_PARALLELS = Ok (out, final) /\ map fst out = [6; 6; 4; 4]%Z.
Proof. eexists. eexists. split; vm_compute; reflexivity. Qed.

(** * C43 *)

(** Whatever style the chooser settles on (with or without an override), a fresh
    winding with at least as many physical turns as sections leaves no section
    empty. *)
Theorem C43_no_empty_section : forall override N P slots st out final,
  (0 < N)%Z -> (Z.of_nat slots <= N * Z.of_nat P)%Z -> (Z.of_nat slots < 20000000000)%Z ->
  choose_section_style override N (Z.of_nat P) (Z.of_nat slots) = Ok st ->
  split_evenly slots N (fresh P) st = Ok (out, final) ->
  List.length out = slots /\ Forall (fun o => (1 <= fst o)%Z) out.
Proof.
  intros override N P slots st out final HN Hphys Hbig Hst E.
  assert (Hpos : (0 < slots)%nat).
  { unfold choose_section_style in Hst. destruct (Z.leb_spec (Z.of_nat slots) 0); [discriminate|lia]. }
  assert (Hfresh : Forall (whole N) (fresh P)).
  { apply Forall_repeat. exists N. split; [lia|]. ring. }
  split.
  { destruct (C01_split_hands_out_every_turn_once N (fresh P) st (repeat 1 slots)) as (o & f & E' & Hl & _); try assumption.
    - destruct slots; [lia|discriminate].
    - apply Forall_repeat. lra.
    - destruct slots; [lia|]. clear. induction slots; [simpl; lra|]. exact IHslots.
    - rewrite repeat_length in E', Hl. unfold split_evenly in E.
      assert (Er : map (fun r : Q => (r, @None Z)) (repeat 1 slots) = repeat (1, None) slots)
        by (clear; induction slots; simpl; congruence).
      rewrite Er, E in E'. injection E' as <- <-. exact Hl. }
  pose proof (fresh_wholes N P HN) as Hw.
  assert (Hk : Forall (fun k => 0 <= k)%Z (repeat N P)) by (apply Forall_repeat; lia).
  pose proof (split_balanced N HN slots 0 slots (fresh P) (repeat N P) st out final eq_refl ltac:(lia) Hw Hk E) as B.
  destruct st.
  - eapply Forall_impl; [|exact B]. cbn beta. intros o Ho. rewrite Zsum_repeat in Ho.
    enough (1 <= N * Z.of_nat P / Z.of_nat slots)%Z by lia.
    apply Z.div_le_lower_bound; lia.
  - (* parallels: then N >= slots *)
    assert (HNs : (Z.of_nat slots <= N)%Z).
    { unfold choose_section_style in Hst. destruct (Z.leb_spec (Z.of_nat slots) 0); [discriminate|].
      destruct (Z.ltb_spec N (Z.of_nat slots)); [|assumption].
      destruct (Z.ltb_spec 1 (Z.of_nat P)); [discriminate|]. nia. }
    destruct P as [|P']; [simpl in Hphys; lia|].
    destruct (split_none_spec N HN (repeat (1, None) slots) 0 slots (fresh (S P')) (repeat N (S P')) WIND_BY_CONSECUTIVE_PARALLELS)
      as (out' & final' & tss & kf & E' & Ho & Hl & _); try assumption.
    { now rewrite repeat_length. }
    { apply Forall_repeat. simpl. split; [lra|reflexivity]. }
    unfold split_evenly in E. rewrite E in E'. injection E' as <- <-.
    clear -Ho B HNs Hpos HN Hl. induction Ho as [|o ts out tss (A1 & A2 & A3) Ho IH]; constructor.
    + inversion B; subst. specialize (H1 0%nat). cbn beta in H1.
      unfold turns_in in H1. rewrite (whole_turns_whole N HN _ _ (wholes_nth N HN _ _ 0 A1)) in H1.
      simpl nth in H1.
      assert (1 <= N / Z.of_nat slots)%Z by (apply Z.div_le_lower_bound; lia).
      inversion Hl; subst. rewrite A3. destruct ts as [|t ts]; [simpl in *; lia|]. simpl in *.
      inversion A2; subst. pose proof (Zsum_nonneg _ H7). lia.
    + inversion B; subst. inversion Hl; subst. apply IH; assumption.
Qed.

Example C43_witness : exists out final,
  choose_section_style None 3 4 5 = Ok WIND_BY_CONSECUTIVE_TURNS /\
  split_evenly 5 3 (fresh 4) WIND_BY_CONSECUTIVE_TURNS = Ok (out, final) /\
  map fst out = [3; 3; 2; 2; 2]%Z.
Proof. eexists. eexists. split; [|split]; vm_compute; reflexivity. Qed.

(** Winding parallel by parallel would not do there, and the chooser knows:
    with fewer turns than slots and several parallels it always winds turn by
    turn, whatever the override. *)
Theorem C43_few_turns_override_ignored : forall override N P slots,
  (1 <= slots)%Z -> (N < slots)%Z -> (1 < P)%Z ->
  choose_section_style override N P slots = Ok WIND_BY_CONSECUTIVE_TURNS /\
  choose_layer_style override N P slots = Ok WIND_BY_CONSECUTIVE_TURNS.
Proof.
  intros. unfold choose_section_style, choose_layer_style.
  destruct (Z.leb_spec slots 0); [lia|]. destruct (Z.ltb_spec N slots); [|lia].
  destruct (Z.ltb_spec 1 P); [|lia]. split; reflexivity.
Qed.

(** Otherwise an override is obeyed. *)
Theorem C43_override_obeyed : forall st N P slots,
  (1 <= slots)%Z -> (slots <= N \/ P <= 1)%Z ->
  choose_section_style (Some st) N P slots = Ok st /\
  choose_layer_style (Some st) N P slots = Ok st.
Proof.
  intros st N P slots Hs H. unfold choose_section_style, choose_layer_style.
  destruct (Z.leb_spec slots 0); [lia|].
  destruct (Z.ltb_spec N slots); destruct (Z.ltb_spec 1 P); simpl; try lia; split; reflexivity.
Qed.

(** The two choosers agree whenever there is at least one slot. They are two
    copies of the same decision list in the code. *)
Theorem C43_sections_and_layers_agree : forall override N P slots,
  (2 <= slots)%Z -> choose_section_style override N P slots = choose_layer_style override N P slots.
Proof.
  intros override N P slots Hs. unfold choose_section_style, choose_layer_style.
  destruct (Z.leb_spec slots 0); [lia|]. destruct (Z.eqb_spec slots 0); [lia|].
  destruct (Z.ltb_spec 1 slots); [|lia]. simpl. reflexivity.
Qed.

(** No slots: the section chooser refuses, the layer chooser divides by zero. *)
Theorem C43_no_slots : forall N P, (1 <= N)%Z -> (1 <= P)%Z ->
  (exists why, choose_section_style None N P 0 = Throw why) /\
  (exists why, choose_layer_style None N P 0 = UB why).
Proof.
  intros N P HN HP. unfold choose_section_style, choose_layer_style. simpl. split; [eauto|].
  destruct (Z.ltb_spec N 0); [lia|]. simpl.
  destruct (Z.eqb_spec N 0); [lia|]. destruct (Z.eqb_spec P 0); [lia|]. eauto.
Qed.

(** * C02 *)

(** Forcing the number of physical turns of every slot: if the counts add up to
    no more than what is left, every slot gets exactly its count, in whole turns,
    and nothing is wound twice; if they add up to all of it nothing is left. *)
Theorem C02_forced_counts_respected : forall N rem st forced,
  (0 < N)%Z -> Forall (whole N) rem ->
  Forall (fun a => 0 <= a)%Z forced -> inject_Z (Zsum forced) <= physical_turns N rem ->
  exists out final,
    split_slots 0 (List.length forced) N rem st (map (fun a => (1, Some a)) forced) = Ok (out, final) /\
    map fst out = forced /\
    Forall (honest N (List.length rem)) out /\
    Forall (whole N) final /\
    (forall p, held p out + nth p final 0 == nth p rem 0) /\
    (inject_Z (Zsum forced) == physical_turns N rem -> check_assigned final = Ok tt).
Proof.
  intros N rem st forced HN Hrem Hf Hsum. pose proof (NQ N HN) as P.
  destruct (whole_counts N rem HN Hrem) as (ks & Hw & Hk).
  unfold physical_turns in *. rewrite (Qsum_wholes N _ _ HN Hw) in *. rewrite inj_le in Hsum.
  destruct (split_forced_spec N HN forced 0 (List.length forced) rem ks st)
    as (out & final & tss & kf & E & Ho & Hm & Hl & Hfi & Hkf & Hlf & Hc & Hz); try assumption; [reflexivity|].
  exists out, final. split; [exact E|]. split; [assumption|]. split; [|split; [|split]].
  - rewrite (wholes_length N _ _ Hw). eapply got_honest; eassumption.
  - eapply wholes_whole; eassumption.
  - intros p. unfold held. pose proof (Qsum_column N out tss p HN Ho) as Ec.
    pose proof (wholes_nth N HN _ _ p Hfi) as F1. pose proof (wholes_nth N HN _ _ p Hw) as F2.
    unfold is_whole in F1, F2. rewrite F1, F2. specialize (Hc p).
    rewrite <- Hc, inject_Z_plus, <- Ec. field. lra.
  - intros Heq. rewrite (Qsum_wholes N _ _ HN Hw), inj_eq in Heq. unfold check_assigned. rewrite zero_list_checks; [reflexivity|].
    eapply zero_wholes; [exact HN|exact Hfi|].
    assert (Zs : Zsum kf = 0%Z) by lia. clear -Zs Hkf.
    induction Hkf; constructor; simpl in Zs; pose proof (Zsum_nonneg _ Hkf); [lia|apply IHHkf; lia].
Qed.

Example C02_witness : exists out final,
  split_slots 0 3 5 [1; 3#5] WIND_BY_CONSECUTIVE_PARALLELS (map (fun a => (1, Some a)) [1; 4; 3]%Z) = Ok (out, final) /\
  map (fun o => map (fun q => Qred (q * 5)) (snd o)) out = [[1; 0]; [2; 2]; [2; 1]].
Proof. eexists. eexists. split; vm_compute; reflexivity. Qed.

(** Winding parallel by parallel, the forced turns are dealt out fairly: a
    parallel is more than one turn behind another only if it has no more turns
    left, and asking for more turns than remain places just what remains. *)
Theorem C02_round_robin_is_fair : forall slotIndex slots N rem rel a,
  (0 < N)%Z -> (slotIndex < slots)%nat -> Forall (whole N) rem -> (0 <= a)%Z ->
  exists phys props,
    get_parallels_proportions slotIndex slots N rem WIND_BY_CONSECUTIVE_PARALLELS rel (Some a) = Ok (phys, props) /\
    honest N (List.length rem) (phys, props) /\
    inject_Z phys == cmin (inject_Z a) (physical_turns N rem) /\
    (forall p, nth p props 0 <= nth p rem 0) /\
    (forall p q, nth p props 0 < nth p rem 0 -> nth q props 0 <= nth p props 0 + 1 / inject_Z N).
Proof.
  intros slotIndex slots N rem rel a HN Hs Hrem Ha. pose proof (NQ N HN) as P.
  destruct (whole_counts N rem HN Hrem) as (ks & Hw & Hk).
  destruct (slot_round_robin N slotIndex slots rem ks rel a HN Hs Hw Hk Ha)
    as (phys & props & ts & E & Hp & Hb & Hph & Hmin & Hfair).
  exists phys, props. split; [exact E|]. split; [|split; [|split]].
  - split; [|split].
    + cbn [snd]. rewrite (wholes_length N _ _ Hp), (wholes_length N _ _ Hw). now apply between_length.
    + eapply wholes_whole; [eassumption|exact Hp|]. eapply between_nonneg. exact Hb.
    + cbn [fst snd]. rewrite (Qsum_wholes N _ _ HN Hp), Hph. reflexivity.
  - unfold physical_turns. pose proof (Qsum_wholes N _ _ HN Hw) as Es.
    unfold cmin. destruct (Qlt_bool (inject_Z N * Qsum rem) (inject_Z a)) eqn:El; qb.
    + rewrite Es in El. rewrite inj_lt in El. rewrite Es, inj_eq. lia.
    + rewrite Es in El. rewrite inj_le in El. rewrite inj_eq. lia.
  - intros p. pose proof (wholes_nth N HN _ _ p Hp) as F1. pose proof (wholes_nth N HN _ _ p Hw) as F2.
    unfold is_whole in F1, F2. rewrite F1, F2. apply Qdiv_le_iff; [assumption|].
    assert (Em : inject_Z (nth p ks 0%Z) / inject_Z N * inject_Z N == inject_Z (nth p ks 0%Z)) by (field; lra).
    rewrite Em, inj_le. clear -Hb. revert p. induction Hb; intros p; destruct p; simpl; try lia; [unfold between in *; lia|auto].
  - intros p q Hlt. pose proof (wholes_nth N HN _ _ p Hp) as F1. pose proof (wholes_nth N HN _ _ p Hw) as F2.
    pose proof (wholes_nth N HN _ _ q Hp) as F3. unfold is_whole in F1, F2, F3. rewrite F1, F2 in Hlt. rewrite F1, F3.
    rewrite (Qdiv_lt_iff _ _ _ P) in Hlt.
    assert (Em : inject_Z (nth p ks 0%Z) / inject_Z N * inject_Z N == inject_Z (nth p ks 0%Z)) by (field; lra).
    rewrite Em, inj_lt in Hlt. specialize (Hfair p q Hlt).
    apply Qdiv_le_iff; [assumption|].
    assert (En : (inject_Z (nth p ts 0%Z) / inject_Z N + 1 / inject_Z N) * inject_Z N == inject_Z (nth p ts 0%Z + 1)).
    { rewrite inject_Z_plus. change (inject_Z 1) with 1. field. lra. }
    rewrite En, inj_le. exact Hfair.
Qed.

(** Winding turn by turn, asking a slot for more turns than remain runs past the
    last parallel: the code reads out of range instead of stopping. *)
Theorem C02_overcommitted_slot_refuted : forall slotIndex slots N rem rel a,
  (0 < N)%Z -> (slotIndex < slots)%nat -> Forall (whole N) rem ->
  physical_turns N rem < inject_Z a -> 
  exists why, get_parallels_proportions slotIndex slots N rem WIND_BY_CONSECUTIVE_TURNS rel (Some a) = UB why.
Proof.
  intros slotIndex slots N rem rel a HN Hs Hrem Ha.
  destruct (whole_counts N rem HN Hrem) as (ks & Hw & Hk).
  unfold physical_turns in Ha. rewrite (Qsum_wholes N _ _ HN Hw), inj_lt in Ha.
  unfold get_parallels_proportions.
  destruct (Nat.leb_spec slots slotIndex); [lia|]. destruct (Z.leb_spec N 0); [lia|]. cbn [orb].
  pose proof (first_active_zero N HN _ _ Hw Hk) as Z0.
  destruct (fill_overflow N HN (skipn (first_active rem) rem) (skipn (first_active rem) ks) a) as (w & E).
  - now apply Forall2_skipn.
  - now apply Forall_skipn.
  - now rewrite Zsum_skip.
  - pose proof (Zsum_nonneg _ Hk). lia.
  - rewrite E. simpl. eauto.
Qed.

Example C02_overcommitted_witness : physical_turns 5 [0; 3#5] < inject_Z 4 /\ Forall (whole 5) [0; 3#5].
Proof.
  split; [vm_compute; reflexivity|]. constructor; [exists 0%Z|constructor; [exists 3%Z|constructor]];
    (split; [lia|reflexivity]).
Qed.

(** Winding turn by turn uses up one parallel before touching the next. *)
Theorem C02_consecutive_turns_in_order : forall slotIndex slots N rem rel a phys props,
  (0 < N)%Z -> Forall (whole N) rem -> (0 <= a)%Z ->
  get_parallels_proportions slotIndex slots N rem WIND_BY_CONSECUTIVE_TURNS rel (Some a) = Ok (phys, props) ->
  phys = a /\ forall p q, (p < q)%nat -> 0 < nth q props 0 -> nth p props 0 == nth p rem 0.
Proof.
  intros slotIndex slots N rem rel a phys props HN Hrem Ha E. pose proof (NQ N HN) as P.
  destruct (whole_counts N rem HN Hrem) as (ks & Hw & Hk).
  unfold get_parallels_proportions in E. destruct (_ || _)%bool eqn:G; [discriminate|].
  apply Bool.orb_false_iff in G. destruct G as [G1 G2].
  pose proof (first_active_zero N HN _ _ Hw Hk) as Z0. set (n := first_active rem) in *.
  destruct (fill_consecutive N a (skipn n rem)) as [l| | |] eqn:F; try discriminate.
  cbn [bind] in E. injection E as <- <-. split; [reflexivity|].
  assert (Hwn : wholes N (skipn n rem) (skipn n ks)) by now apply Forall2_skipn.
  assert (Hkn : Forall (fun k => 0 <= k)%Z (skipn n ks)) by now apply Forall_skipn.
  assert (Hle : (a <= Zsum (skipn n ks))%Z).
  { destruct (Z.le_gt_cases a (Zsum (skipn n ks))); [assumption|].
    destruct (fill_overflow N HN _ _ a Hwn Hkn) as (w & Ew); [lia|pose proof (Zsum_nonneg _ Hkn); lia|].
    rewrite Ew in F. discriminate. }
  destruct (fill_spec N HN _ _ a Hwn Hkn ltac:(lia)) as (l' & ts & F' & Hl & Hb & Hs).
  rewrite F in F'. injection F' as <-.
  assert (Hfl : List.length (map (fun _ : Q => 0) (firstn n rem)) = n).
  { rewrite map_length, firstn_length. pose proof (first_active_le rem). unfold n. lia. }
  intros p q Hpq Hq.
  destruct (lt_dec q n) as [Hqn|Hqn].
  { rewrite app_nth1 in Hq by lia. exfalso.
    assert (Hz : nth q (map (fun _ : Q => 0) (firstn n rem)) 0 = 0).
    { clear. generalize (firstn n rem) as ll. intros ll. revert q. induction ll; destruct q; simpl; auto. }
    rewrite Hz in Hq. lra. }
  rewrite app_nth2 in Hq by lia. rewrite Hfl in Hq.
  destruct (lt_dec p n) as [Hpn|Hpn].
  { rewrite app_nth1 by lia.
    assert (Hz : nth p (map (fun _ : Q => 0) (firstn n rem)) 0 = 0).
    { clear. generalize (firstn n rem) as ll. intros ll. revert p. induction ll; destruct p; simpl; auto. }
    rewrite Hz. pose proof (wholes_nth N HN _ _ p Hw) as Fp. unfold is_whole in Fp. rewrite Fp.
    assert (Hkp : nth p ks 0%Z = 0%Z).
    { rewrite Forall_forall in Z0. assert (Hlk : (n <= List.length ks)%nat).
      { rewrite <- (wholes_length N _ _ Hw). apply first_active_le. }
      rewrite <- (firstn_skipn n ks). rewrite app_nth1 by (rewrite firstn_length; lia).
      apply Z0. apply nth_In. rewrite firstn_length. lia. }
    rewrite Hkp. change (inject_Z 0) with 0. field. lra. }
  rewrite app_nth2 by lia. rewrite Hfl.
  assert (Hts : (0 < nth (q - n) ts 0)%Z).
  { pose proof (wholes_nth N HN _ _ (q - n) Hl) as Fq. unfold is_whole in Fq. rewrite Fq in Hq.
    apply Qlt_div_iff in Hq; [|assumption]. rewrite Qmult_0_l in Hq. change 0 with (inject_Z 0) in Hq.
    now rewrite inj_lt in Hq. }
  pose proof (fill_in_order N _ _ a l ts HN Hwn Hkn Ha F Hl (p - n) (q - n) ltac:(lia) Hts) as Ep.
  pose proof (wholes_nth N HN _ _ (p - n) Hl) as F1. pose proof (wholes_nth N HN _ _ (p - n) Hwn) as F2.
  unfold is_whole in F1, F2. rewrite F1, Ep, <- F2.
  rewrite <- (firstn_skipn n rem) at 2.
  rewrite app_nth2; rewrite firstn_length; rewrite Nat.min_l by apply first_active_le; [reflexivity|lia].
Qed.

Example C02_order_witness : exists props,
  get_parallels_proportions 0 2 5 [0; 3#5; 1] WIND_BY_CONSECUTIVE_TURNS 1 (Some 4%Z) = Ok (4%Z, props) /\
  map (fun q => Qred (q * 5)) props = [0; 3; 1].
Proof. eexists. split; vm_compute; reflexivity. Qed.

Print Assumptions C01_split_hands_out_every_turn_once.
Print Assumptions C01_coil_winds_every_turn_once.
Print Assumptions C01_interleaved_coil_winds_every_turn_once.
Print Assumptions C01_round_overlapping_refuted.
Print Assumptions C01_round_overlapping_one_section_each.
Print Assumptions C01_even_sharing.
Print Assumptions C43_no_empty_section.
Print Assumptions C43_few_turns_override_ignored.
Print Assumptions C43_override_obeyed.
Print Assumptions C43_sections_and_layers_agree.
Print Assumptions C43_no_slots.
Print Assumptions C02_forced_counts_respected.
Print Assumptions C02_round_robin_is_fair.
Print Assumptions C02_overcommitted_slot_refuted.
Print Assumptions C02_consecutive_turns_in_order.
