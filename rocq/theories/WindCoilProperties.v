(** C72 and C03: the sections of a rectangular window, and a coil wound from its sections down to its turns. *)
From Coq Require Import ZArith QArith Qround Qabs List Bool String Lia Lqa Arith FinFun.
From Verif Require Import Base QAux UtilsNumProofs CoilSplitModel CoilSplitProofs CoilSplitProperties StationModel WindModel WindProofs WindProperties WindLayerProofs WindLayerProperties.
Import ListNotations.
Open Scope Q_scope.

(** * Vocabulary *)

Definition conduction_sections (ss : list section) : list section := filter (fun s => is_conduction (s_type s)) ss.

(** The windings of the conduction sections asked for, in wound order. *)
Definition wound_order (items : list (electrical * (nat * Q))) : list nat :=
  map (fun x => fst (snd x)) (filter (fun x => is_conduction (fst x)) items).

(** Extent of a section along the window: its thickness across overlapping sections, its height in a column of them. *)
Definition extent (o : orientation) (s : section) : Q := if is_overlapping o then fst (s_size s) else snd (s_size s).

(** The sections lie one against the other from [edge] on: outwards if they overlap, downwards if not. *)
Fixpoint adjoin (o : orientation) (edge : Q) (ss : list section) : Prop :=
  match ss with
  | [] => True
  | s :: r =>
      (if is_overlapping o then fst (s_center s) - extent o s / 2 == edge else snd (s_center s) + extent o s / 2 == edge) /\
      adjoin o (if is_overlapping o then edge + extent o s else edge - extent o s) r
  end.

Definition first_edge (g : group) : Q :=
  if is_overlapping (g_orientation g) then fst (g_center g) - fst (g_size g) / 2 else snd (g_center g) + snd (g_size g) / 2.

(** A section is centred on the window. *)
Definition centred (g : group) (s : section) : Prop :=
  if is_overlapping (g_orientation g) then snd (s_center s) = snd (g_center g) else fst (s_center s) = fst (g_center g).

(** What sections are asked for: they belong to the windings, each winding's number of sections is right, every winding has one,
    and spaces are not negative. *)
Definition asked (e : section_env) : Prop :=
  (forall w, In w (wound_order (se_items e)) -> (w < List.length (se_windings e))%nat) /\
  (forall w, (w < List.length (se_windings e))%nat -> In w (wound_order (se_items e)) /\
             se_sections e w = count_occ Nat.eq_dec (wound_order (se_items e)) w) /\
  Forall (fun x => 0 <= snd (snd x)) (se_items e).

(** The insulation between sections is not conduction. *)
Definition insulated_sections (e : section_env) : Prop :=
  forall i j t, se_insulation e i j = Some t -> is_conduction (s_type t) = false.

(** * Proofs *)

Definition coil_of (e : section_env) (w : nat) : winding_plan :=
  match nth_error (se_windings e) w with
  | Some x => {| turns := w_turns x; parallels := w_parallels x; style := se_style e w; sections_of := se_sections e w |}
  | None => {| turns := 0; parallels := 0; style := se_style e w; sections_of := se_sections e w |}
  end.

(** Section [s] is the one of winding [w] that got [pr]. *)
Definition section_of (e : section_env) (s : section) (o : nat * (Z * list Q)) : Prop :=
  exists winding, nth_error (se_windings e) (fst o) = Some winding /\ s_partials s = [(w_name winding, snd (snd o))] /\
    s_style s = Some (se_style e (fst o)) /\ s_number_layers s = None /\ s_layers s = se_layers e (s_name s) /\
    (0 <= fst (s_size s)) /\
    (if is_overlapping (g_orientation (se_group e)) then w_height winding <= snd (s_size s) else w_width winding <= fst (s_size s)).

(** Sections of winding [name], in order. *)
Definition sections_of_winding (name : string) (ss : list section) : list section :=
  filter (fun s => match s_partials s with (n, _) :: _ => String.eqb n name | [] => false end) (conduction_sections ss).

Definition edge_of (e : section_env) (edge : option (Q * Q)) : Q * Q :=
  match edge with
  | Some x => x
  | None => if is_overlapping (g_orientation (se_group e)) then (first_edge (se_group e), snd (g_center (se_group e)))
            else (fst (g_center (se_group e)), first_edge (se_group e))
  end.
Definition line_of (e : section_env) (x : Q * Q) : Q := if is_overlapping (g_orientation (se_group e)) then fst x else snd x.
Definition level_of (e : section_env) (x : Q * Q) : Q := if is_overlapping (g_orientation (se_group e)) then snd x else fst x.

(** Types with some of the insulation left out. *)
Inductive thinned : list bool -> list bool -> Prop :=
| thin_nil : thinned [] []
| thin_keep b x y : thinned x y -> thinned (b :: x) (b :: y)
| thin_drop x y : thinned x y -> thinned (false :: x) y.

Lemma section_loop_sound e : insulated_sections e -> NoDup (map w_name (se_windings e)) ->
  forall items index rem cur ordinal edge ss final,
  section_loop e index items rem cur ordinal edge = Ok (Some (ss, final)) ->
  (index <> 0%nat -> edge <> None) ->
  exists out, wind_sections (coil_of e) rem cur (map (fun w => (w, 1)) (wound_order items)) = Ok (out, final) /\
    Forall2 (section_of e) (conduction_sections ss) out /\
    thinned (map (fun x => is_conduction (fst x)) items) (map (fun s => is_conduction (s_type s)) ss) /\
    (forall v x, nth_error (se_windings e) v = Some x ->
       map s_name (sections_of_winding (w_name x) ss) =
       map (section_name (w_name x)) (seq (cur v) (count_occ Nat.eq_dec (wound_order items) v))) /\
    adjoin (g_orientation (se_group e)) (line_of e (edge_of e edge)) ss /\
    Forall (fun s => level_of e (s_center s) = level_of e (edge_of e edge)) ss /\
    (Forall (fun x => 0 <= snd (snd x)) items -> Forall (fun s => 0 <= snd (s_size s) \/ is_overlapping (g_orientation (se_group e)) = true) (conduction_sections ss)).
Proof.
  intros HI ND. induction items as [|[type [w space]] rest IH]; intros index rem cur ordinal edge ss final E Hedge.
  - cbn in E. injection E as <- <-. exists []. cbn. split; [reflexivity|]. split; [constructor|]. split; [constructor|].
    split; [reflexivity|]. split; [exact I|]. split; [constructor|]. intros; constructor.
  - cbn [section_loop] in E. destruct (is_conduction type) eqn:T.
    + unfold at_index in E. destruct (nth_error (se_windings e) w) as [x|] eqn:Ew; [|discriminate]. cbn [bind] in E.
      set (o := is_overlapping (g_orientation (se_group e))) in *.
      assert (Eedge : (match edge with
                     | Some x => x
                     | None => if o then (fst (g_center (se_group e)) - fst (g_size (se_group e)) / 2, snd (g_center (se_group e)))
                               else (fst (g_center (se_group e)), snd (g_center (se_group e)) + snd (g_size (se_group e)) / 2)
                     end) = edge_of e edge).
      { unfold edge_of, first_edge. fold o. destruct edge; [reflexivity|]. now destruct o. }
      rewrite Eedge in E. clear Eedge. set (ed := edge_of e edge) in *.
      destruct (get_parallels_proportions (cur w) (se_sections e w) (w_turns x) (rem w) (se_style e w) 1 None) as [[ph pr]| | |] eqn:G; try discriminate.
      cbn [bind snd] in E.
      destruct (nth_error (se_margins e) ordinal) as [margin|]; [|discriminate]. cbn [bind] in E.
      match type of E with context [if (if o then ?a else ?b) then _ else _] => destruct (if o then a else b) eqn:B1; [discriminate|] end.
      match type of E with context [Qlt_bool (fst ?sz) 0] => set (size := sz) in *; destruct (Qlt_bool (fst size) 0) eqn:B2; [discriminate|] end.
      match type of E with context [Qlt_bool (fst ?c) (-1)] => set (center := c) in *; destruct (Qlt_bool (fst center) (-1)) eqn:B3; [discriminate|] end.
      match type of E with context [section_loop e (S index) rest ?r ?c ?k (Some ?n)] => set (rem' := r) in *; set (cur' := c) in *; set (next := n) in *;
        destruct (section_loop e (S index) rest rem' cur' k (Some next)) as [[[l fin]|]| | |] eqn:E2; try discriminate end.
      cbn [bind] in E. injection E as <- <-.
      destruct (IH _ _ _ _ _ _ _ E2 ltac:(discriminate)) as (out & W & F2 & TH & NM & AD & LV & NN).
      cbn [edge_of] in *.
      exists ((w, (ph, pr)) :: out).
      unfold wound_order. cbn [filter fst]. rewrite T. cbn [map snd fst wind_sections].
      assert (Cw : coil_of e w = {| turns := w_turns x; parallels := w_parallels x; style := se_style e w; sections_of := se_sections e w |}).
      { unfold coil_of. now rewrite Ew. }
      rewrite Cw. cbn [turns parallels style sections_of]. rewrite G. cbn [bind].
      unfold wound_order, rem', cur' in W. rewrite W. cbn [bind]. split; [reflexivity|].
      cbn [conduction_sections filter s_type is_conduction].
      apply Qlt_bool_false in B2.
      split; [|split; [|split; [|split; [|split]]]].
      * constructor; [|exact F2]. exists x. cbn [fst snd s_partials s_style s_number_layers s_layers s_name s_size].
        split; [assumption|]. split; [reflexivity|]. split; [reflexivity|]. split; [reflexivity|]. split; [reflexivity|].
        split; [assumption|]. fold o. unfold size in *. destruct o; apply Qlt_bool_false in B1; cbn [fst snd] in *; lra.
      * rewrite <- T. constructor. exact TH.
      * intros v y Hv. unfold sections_of_winding. cbn [conduction_sections filter s_type is_conduction s_partials].
        specialize (NM v y Hv). unfold sections_of_winding, wound_order in NM. unfold conduction_sections in NM.
        cbn [count_occ]. destruct (Nat.eq_dec w v) as [->|Hne].
        -- assert (y = x) by congruence. subst y. rewrite String.eqb_refl. cbn [map s_name seq].
           rewrite NM. unfold cur'. rewrite upd_same. reflexivity.
        -- destruct (String.eqb_spec (w_name x) (w_name y)) as [En|En].
           ++ exfalso. apply Hne. rewrite NoDup_nth_error in ND. apply ND.
              ** rewrite map_length. apply nth_error_Some. congruence.
              ** rewrite !nth_error_map, Ew, Hv. cbn. now rewrite En.
           ++ rewrite NM. unfold cur'. now rewrite upd_other by congruence.
      * cbn [adjoin]. unfold extent, line_of in *. fold o. fold o in AD. cbn [s_size s_center]. unfold center, size, next in *.
        destruct o; cbn [fst snd] in *; (split; [|exact AD]); field.
      * constructor.
        -- cbn [s_center]. unfold level_of, center. fold o. destruct o; reflexivity.
        -- eapply Forall_impl; [|exact LV]. cbn beta. intros s0 H0. rewrite H0. unfold level_of, next. fold o. destruct o; reflexivity.
      * intros HF. inversion HF as [|? ? F1 F3]; subst. cbn [snd] in F1. constructor; [|now apply NN].
        cbn [s_size]. unfold size. destruct o; [now right|left; exact F1].
    + destruct index as [|previous]; [discriminate|]. unfold at_index in E.
      destruct (nth_error (se_items e) previous) as [before|]; [|discriminate]. cbn [bind] in E.
      match type of E with context [bind (if ?b then ?x else ?y) _] => destruct (if b then x else y) as [after| | |]; try discriminate end.
      cbn [bind] in E.
      assert (Ew : wound_order ((type, (w, space)) :: rest) = wound_order rest).
      { unfold wound_order. cbn [filter fst]. now rewrite T. }
      rewrite Ew. cbn [map fst]. rewrite T.
      destruct (se_insulation e (fst (snd before)) (fst (snd after))) as [template|] eqn:Et.
      * destruct (nth_error (se_windings e) (fst (snd before))) as [wb|]; [|discriminate]. cbn [bind] in E.
        destruct (nth_error (se_windings e) (fst (snd after))) as [wa|]; [|discriminate]. cbn [bind] in E.
        destruct edge as [ed|]; [|exfalso; now apply Hedge].
        set (o := is_overlapping (g_orientation (se_group e))) in *.
        match type of E with context [section_loop e _ rest ?r ?c ?k (Some ?n)] => set (next := n) in *;
          destruct (section_loop e (S (S previous)) rest r c k (Some next)) as [[[l fin]|]| | |] eqn:E2; try discriminate end.
        cbn [bind] in E. injection E as <- <-.
        destruct (IH _ _ _ _ _ _ _ E2 ltac:(discriminate)) as (out & W & F2 & TH & NM & AD & LV & NN). cbn [edge_of] in *.
        assert (Tt : is_conduction (s_type template) = false) by (eapply HI; eassumption).
        exists out. split; [exact W|]. cbn [conduction_sections filter s_type]. rewrite Tt. split; [exact F2|].
        split; [cbn [map s_type]; rewrite Tt; now constructor|].
        split.
        { intros v y Hv. unfold sections_of_winding. cbn [conduction_sections filter s_type]. rewrite Tt. now apply NM. }
        split.
        { cbn [adjoin]. unfold extent, line_of in *. fold o. fold o in AD. cbn [s_size s_center]. unfold next in *.
          destruct o; cbn [fst snd] in *; (split; [|exact AD]); field. }
        split.
        { constructor.
          - cbn [s_center]. unfold level_of. fold o. destruct o; reflexivity.
          - eapply Forall_impl; [|exact LV]. cbn beta. intros s0 H0. rewrite H0. unfold level_of, next. fold o. destruct o; reflexivity. }
        intros HF. inversion HF; subst. now apply NN.
      * destruct (IH _ _ _ _ _ _ _ E) as (out & W & F2 & TH & NM & AD & LV & NN).
        { intros _. apply Hedge. discriminate. }
        exists out. split; [exact W|]. split; [exact F2|]. split; [now constructor|]. split; [exact NM|]. split; [exact AD|].
        split; [exact LV|]. intros HF. inversion HF; subst. now apply NN.
Qed.

(** Insulation only between conduction. *)
Fixpoint between_conduction (before : bool) (l : list bool) : Prop :=
  match l with
  | [] => True
  | true :: r => between_conduction true r
  | false :: r => before = true /\ between_conduction false r
  end.

Lemma thinned_between x y : thinned x y -> forall b b', (b = true -> b' = true) -> between_conduction b x -> between_conduction b' y.
Proof.
  induction 1 as [|c x y H IH|x y H IH]; intros b b' Hb Hx; [exact I| |].
  - destruct c; cbn in *.
    + eapply IH; [|exact Hx]. auto.
    + destruct Hx as [H1 H2]. split; [auto|]. eapply IH; [|exact H2]. auto.
  - cbn in Hx. destruct Hx as [H1 H2]. eapply IH; [|exact H2]. discriminate.
Qed.

Lemma between_nth : forall l b i, between_conduction b l -> nth_error l i = Some false ->
  (i = 0%nat -> b = true) /\ (forall p, i = S p -> nth_error l p = Some true) /\ nth_error l (S i) <> Some false.
Proof.
  induction l as [|c l IH]; intros b i H Hi; [destruct i; discriminate|].
  destruct i as [|i]; cbn in Hi.
  - injection Hi as ->. cbn in H. destruct H as [H1 H2]. split; [auto|]. split; [discriminate|]. cbn.
    destruct l as [|d l]; [discriminate|]. destruct d; [discriminate|]. cbn in H2. destruct H2. discriminate.
  - assert (B : between_conduction c l) by (destruct c; cbn in H; [exact H|now destruct H]).
    destruct (IH c i B Hi) as (A1 & A2 & A3). split; [discriminate|]. split; [|exact A3].
    intros p Hp. injection Hp as ->. destruct p as [|p]; cbn; [f_equal; now apply A1|]. now apply A2.
Qed.

(** Layers of the section lists. *)
Definition layered_coil (windings : list winding) (s : section) (ls : list layer) : Prop :=
  if is_conduction (s_type s) then layered windings s ls else conduction ls = [] /\ Forall (fun l => l_section l = Some (s_name s)) ls.

Lemma sheets_insulated s size : forall ts index center, Forall (fun t => is_conduction (l_type t) = false) ts ->
  conduction (sheets_from s size index center ts) = [] /\
  Forall (fun l => l_section l = Some (s_name s)) (sheets_from s size index center ts).
Proof.
  induction ts as [|t ts IH]; intros index center H; [split; [reflexivity|constructor]|]. inversion H as [|? ? H1 H2]; subst.
  cbn [sheets_from conduction filter l_type]. rewrite H1. destruct (IH (S index)
    (step_layer (s_layers s) (if is_overlapping (s_layers s) then fst size else snd size) center) H2) as [A B].
  split; [exact A|]. constructor; [reflexivity|exact B].
Qed.

Lemma layers_from_ok e sections : sane (le_windings e) -> insulated e ->
  between_conduction false (map (fun s => is_conduction (s_type s)) sections) ->
  Forall (layable (le_windings e)) (conduction_sections sections) ->
  forall pre l, sections = (pre ++ l)%list ->
  exists blocks, layers_from e sections (List.length pre) l = Ok (List.concat blocks) /\
    Forall2 (layered_coil (le_windings e)) l blocks /\
    (le_real e = false ->
     Forall (fun s => s_style s = Some WIND_BY_CONSECUTIVE_TURNS \/
        (exists w props, In w (le_windings e) /\ s_partials s = [(w_name w, props)] /\ even (w_turns w) props)) (conduction_sections l) ->
     Forall (windable (le_windings e)) (conduction (List.concat blocks))).
Proof.
  intros HS HI HB HL pre l. revert pre. induction l as [|s l IH]; intros pre El.
  - exists []. cbn. split; [reflexivity|]. split; constructor.
  - destruct (IH (pre ++ [s])%list) as (blocks & EB & FB & WB).
    { rewrite <- app_assoc. exact El. }
    rewrite app_length in EB. cbn [List.length] in EB. rewrite Nat.add_1_r in EB.
    assert (Hin : forall x, In x sections -> is_conduction (s_type x) = true -> layable (le_windings e) x).
    { intros x Hx Hc. rewrite Forall_forall in HL. apply HL. apply filter_In. auto. }
    cbn [layers_from]. destruct (is_conduction (s_type s)) eqn:T.
    + assert (Hl : layable (le_windings e) s).
      { apply Hin; [|assumption]. rewrite El. apply in_or_app. right. now left. }
      destruct (section_layers e s HS HI Hl) as (ls & E & L & WD & OR). rewrite E. cbn [bind]. rewrite EB. cbn [bind].
      exists (ls :: blocks). split; [reflexivity|]. split.
      * constructor; [|assumption]. unfold layered_coil. now rewrite T.
      * intros HR HF. cbn [conduction_sections filter] in HF. rewrite T in HF. inversion HF as [|? ? F1 F2]; subst.
        cbn [List.concat]. rewrite conduction_app. apply Forall_app. split; [now apply WD|now apply WB].
    + assert (Hi : nth_error (map (fun s => is_conduction (s_type s)) sections) (List.length pre) = Some false).
      { rewrite nth_error_map, El, nth_error_app2, Nat.sub_diag by lia. cbn. now rewrite T. }
      destruct (between_nth _ _ _ HB Hi) as (B1 & B2 & B3).
      assert (Hname : forall x, layable (le_windings e) x -> exists p i w, at_index (s_partials x) 0 = Ok p /\
                winding_by_name (le_windings e) (fst p) = Ok (i, w)).
      { intros x (w & props & Hw & _ & Hp & _). apply In_nth_error in Hw. destruct Hw as (i & Hi0). destruct HS as [ND _].
        exists (w_name w, props), i, w. rewrite Hp. split; [reflexivity|]. cbn. now apply winding_by_name_nth. }
      assert (EI : exists ls, layers_of_insulation e sections (List.length pre) s = Ok ls /\ conduction ls = [] /\
                    Forall (fun l => l_section l = Some (s_name s)) ls).
      { unfold layers_of_insulation. destruct (List.length pre) as [|previous] eqn:Lp; [now specialize (B1 eq_refl)|].
        specialize (B2 previous eq_refl). rewrite nth_error_map in B2.
        unfold at_index at 1. destruct (nth_error sections previous) as [before|] eqn:Eb; [|discriminate]. cbn [bind].
        injection B2 as Cb.
        destruct (Hname before) as (pb & ib & wb & P1 & P2); [apply Hin; [eapply nth_error_In; eassumption|assumption]|].
        rewrite P1. cbn [bind]. rewrite P2. cbn [bind].
        assert (EA : exists after, (if Nat.eqb (S (S previous)) (List.length sections) then at_index sections 0
                else bind (at_index sections (S (S previous))) (fun a => if (is_conduction (s_type before) && is_conduction (s_type a))%bool then Ok a
                  else Throw "Previous and next sections must be conductive")) = Ok after /\ layable (le_windings e) after).
        { destruct (Nat.eqb_spec (S (S previous)) (List.length sections)) as [Hlast|Hlast].
          - unfold at_index. destruct sections as [|first r] eqn:Es; [cbn in Hlast; lia|]. cbn [nth_error].
            exists first. split; [reflexivity|]. apply Hin; [now left|].
            destruct (is_conduction (s_type first)) eqn:Cf; [reflexivity|]. cbn [map between_conduction] in HB. rewrite Cf in HB. now destruct HB.
          - unfold at_index. destruct (nth_error sections (S (S previous))) as [a|] eqn:Ea.
            + cbn [bind]. rewrite nth_error_map, Ea in B3. cbn in B3. rewrite Cb.
              destruct (is_conduction (s_type a)) eqn:Ca; [|congruence]. cbn [andb]. exists a. split; [reflexivity|].
              apply Hin; [eapply nth_error_In; eassumption|assumption].
            + exfalso. apply nth_error_None in Ea. assert (List.length sections = List.length pre + S (List.length l))%nat.
              { rewrite El, app_length. reflexivity. } lia. }
        destruct EA as (after & EA & La). rewrite EA. cbn [bind].
        destruct (Hname after La) as (pa & ia & wa & P3 & P4). rewrite P3. cbn [bind]. rewrite P4. cbn [bind].
        destruct (le_intersection e ib ia) as [[|t r]|] eqn:Ei; [exists []; repeat split; constructor| |exists []; repeat split; constructor].
        destruct HI as [_ HI2]. eexists. split; [reflexivity|]. apply sheets_insulated. eapply HI2; eassumption. }
      destruct EI as (ls & EI & C1 & C2). rewrite EI. cbn [bind]. rewrite EB. cbn [bind].
      exists (ls :: blocks). split; [reflexivity|]. split.
      * constructor; [|assumption]. unfold layered_coil. rewrite T. now split.
      * intros HR HF. cbn [conduction_sections filter] in HF. rewrite T in HF.
        cbn [List.concat]. rewrite conduction_app, C1. cbn [app]. now apply WB.
Qed.

Lemma coil_shares windings w p : forall ss blocks, Forall2 (layered_coil windings) ss blocks ->
  share w p (List.concat blocks) == Qsum (map (section_share_of w p) (conduction_sections ss)).
Proof.
  intros ss blocks H. induction H as [|s b ss blocks Hb H IH]; [reflexivity|]. cbn [List.concat]. rewrite share_app, IH.
  cbn [conduction_sections filter]. unfold layered_coil in Hb. destruct (is_conduction (s_type s)).
  - cbn [map Qsum]. destruct Hb as (_ & _ & _ & _ & Hsh & _). rewrite (Hsh w p). reflexivity.
  - destruct Hb as [Hb _]. unfold share. rewrite Hb. cbn [map Qsum]. unfold conduction_sections. apply Qplus_0_l.
Qed.

(** ** The sections share out the windings *)

Lemma of_winding_order w order : of_winding w (map (fun v : nat => (v, 1)) order) = repeat 1 (count_occ Nat.eq_dec order w).
Proof.
  unfold of_winding. induction order as [|a t IH]; [reflexivity|]. cbn [map filter fst count_occ].
  destruct (Nat.eqb_spec a w); destruct (Nat.eq_dec a w); try congruence; cbn [map snd repeat]; rewrite IH; reflexivity.
Qed.

Lemma repeat_args k : map (fun r : Q => (r, @None Z)) (repeat 1 k) = repeat (1, None) k.
Proof. induction k; cbn; congruence. Qed.

Lemma last_ones k : (0 < k)%nat -> 1 <= last (repeat 1 k) 0.
Proof. intros H. destruct k; [lia|]. clear H. induction k; [cbn; lra|exact IHk]. Qed.

(** What each winding's sections got. *)
Lemma sections_got e : insulated_sections e -> sane (se_windings e) -> asked e ->
  forall ss, wind_by_rectangular_sections e = Ok (Some ss) ->
  exists out, Forall2 (section_of e) (conduction_sections ss) out /\
    (forall w x, nth_error (se_windings e) w = Some x -> exists final,
       split_evenly (se_sections e w) (w_turns x) (fresh (w_parallels x)) (se_style e w) = Ok (of_winding w out, final) /\
       (forall p, (p < w_parallels x)%nat -> held p (of_winding w out) == 1) /\
       Forall (honest (w_turns x) (w_parallels x)) (of_winding w out)) /\
    thinned (map (fun x => is_conduction (fst x)) (se_items e)) (map (fun s => is_conduction (s_type s)) ss) /\
    (forall v x, nth_error (se_windings e) v = Some x ->
       map s_name (sections_of_winding (w_name x) ss) = map (section_name (w_name x)) (seq 0 (se_sections e v))) /\
    adjoin (g_orientation (se_group e)) (first_edge (se_group e)) ss /\
    Forall (centred (se_group e)) ss /\
    Forall (fun s => 0 <= snd (s_size s) \/ is_overlapping (g_orientation (se_group e)) = true) (conduction_sections ss).
Proof.
  intros HI [ND HT] (A1 & A2 & A3) ss E. unfold wind_by_rectangular_sections in E.
  set (rem := fun w => repeat 1 (match nth_error (se_windings e) w with Some x => w_parallels x | None => 0%nat end)) in *.
  destruct (section_loop e 0 (se_items e) rem (fun _ => 0%nat) 0 None) as [[[l final]|]| | |] eqn:E1; try discriminate.
  cbn [bind] in E. destruct (check_all_assigned _ _); try discriminate. cbn [bind] in E. injection E as <-.
  destruct (section_loop_sound e HI ND _ _ _ _ _ _ _ _ E1 ltac:(congruence)) as (out & W & F2 & TH & NM & AD & LV & NN).
  exists out. split; [exact F2|]. rewrite Forall_forall in HT.
  assert (HA : forall w x, nth_error (se_windings e) w = Some x -> exists o f,
     split_evenly (se_sections e w) (w_turns x) (fresh (w_parallels x)) (se_style e w) = Ok (o, f) /\
     (forall p, (p < w_parallels x)%nat -> held p o == 1) /\ Forall (honest (w_turns x) (w_parallels x)) o).
  { intros w x Hx. specialize (HT x (nth_error_In _ _ Hx)).
    destruct (A2 w) as [Hin Hs]; [apply nth_error_Some; congruence|]. apply (count_occ_In Nat.eq_dec) in Hin. rewrite <- Hs in Hin.
    destruct (C01_split_hands_out_every_turn_once (w_turns x) (fresh (w_parallels x)) (se_style e w) (repeat 1 (se_sections e w)))
      as (o & f & Es & _ & Ho & Hh & _).
    - lia.
    - apply Forall_repeat. exists (w_turns x). split; [lia|]. ring.
    - destruct (se_sections e w); [lia|discriminate].
    - apply Forall_repeat. lra.
    - apply last_ones. lia.
    - rewrite repeat_length, repeat_args in Es. unfold fresh in Ho at 1. rewrite repeat_length in Ho.
      exists o, f. split; [exact Es|]. split; [|exact Ho]. intros p Hp. rewrite Hh. unfold fresh. now rewrite nth_repeat_lt. }
  destruct (wind_sections_each (coil_of e) (map (fun w => (w, 1)) (wound_order (se_items e))) rem (fun _ => O)) as (out' & final' & W' & Hm & He).
  { intros w. rewrite of_winding_order, repeat_args. destruct (nth_error (se_windings e) w) as [x|] eqn:Ex.
    - destruct (HA w x Ex) as (o & f & Es & _). exists o, f. unfold coil_of, rem. rewrite Ex. cbn [sections_of turns style].
      destruct (A2 w) as [_ Hs]; [apply nth_error_Some; congruence|]. rewrite <- Hs. exact Es.
    - assert (Hc : count_occ Nat.eq_dec (wound_order (se_items e)) w = 0%nat).
      { apply count_occ_not_In. intros Hi. apply A1 in Hi. apply nth_error_None in Ex. lia. }
      rewrite Hc. cbn. eauto. }
  rewrite W in W'. injection W' as <- <-. split.
  { intros w x Ex. specialize (He w). rewrite of_winding_order, repeat_args in He. destruct (HA w x Ex) as (o & f & Es & Hh & Ho).
    destruct (A2 w) as [_ Hs]; [apply nth_error_Some; congruence|]. rewrite <- Hs in He.
    assert (Es2 : split_slots 0 (sections_of (coil_of e w)) (turns (coil_of e w)) (rem w) (style (coil_of e w)) (repeat (1, None) (se_sections e w)) = Ok (o, f)).
    { unfold coil_of, rem. rewrite Ex. exact Es. }
    rewrite Es2 in He. injection He as E3 E4. rewrite <- E3. exists f. split; [exact Es|]. split; assumption. }
  split; [exact TH|]. split.
  { intros v x Hx. rewrite (NM v x Hx). destruct (A2 v) as [_ Hs]; [apply nth_error_Some; congruence|]. now rewrite Hs. }
  split; [|split].
  - unfold line_of, edge_of, first_edge in *. destruct (is_overlapping _); exact AD.
  - eapply Forall_impl; [|exact LV]. cbn beta. intros s Hs. unfold centred. unfold level_of, edge_of, first_edge in Hs.
    destruct (is_overlapping _); exact Hs.
  - now apply NN.
Qed.

(** ** Shares *)

Lemma of_winding_shares e : NoDup (map w_name (se_windings e)) -> forall w x p, nth_error (se_windings e) w = Some x ->
  forall ss out, Forall2 (section_of e) ss out -> Qsum (map (section_share_of (w_name x) p) ss) == held p (of_winding w out).
Proof.
  intros ND w x p Hx ss out H. induction H as [|s [v [ph pr]] ss out Hs H IH]; [reflexivity|].
  destruct Hs as (y & Hy & Hp & _). cbn [fst snd] in *. cbn [map Qsum]. rewrite IH. unfold section_share_of at 1. rewrite Hp.
  unfold held, of_winding. cbn [filter fst]. destruct (Nat.eqb_spec v w) as [->|Hne].
  - assert (y = x) by congruence. subst y. rewrite String.eqb_refl. cbn [map snd Qsum]. reflexivity.
  - destruct (String.eqb_spec (w_name y) (w_name x)) as [En|En]; [|apply Qplus_0_l].
    exfalso. apply Hne. rewrite NoDup_nth_error in ND. apply ND.
    + rewrite map_length. apply nth_error_Some. congruence.
    + rewrite !nth_error_map, Hy, Hx. cbn. now rewrite En.
Qed.

Lemma fresh_rowed N k : rowed N (repeat N k).
Proof. unfold rowed. induction k; cbn; constructor; auto. Qed.

Lemma In_of_winding {A} w (x : A) l : In (w, x) l -> In x (of_winding w l).
Proof.
  intros H. unfold of_winding. change x with (snd (w, x)). apply in_map. apply filter_In. split; [assumption|]. cbn. apply Nat.eqb_refl.
Qed.

(** * Theorems *)

(** C72: the sections of a rectangular window lie one against the other from its edge, centred on it; those of a
    winding are numbered in wound order; and the turns of every winding are all in its sections. *)
Theorem C72_sections_tile : forall e ss,
  insulated_sections e -> sane (se_windings e) -> asked e ->
  wind_by_rectangular_sections e = Ok (Some ss) ->
  adjoin (g_orientation (se_group e)) (first_edge (se_group e)) ss /\
  Forall (centred (se_group e)) ss /\
  (forall v x, nth_error (se_windings e) v = Some x ->
     map s_name (sections_of_winding (w_name x) ss) = map (section_name (w_name x)) (seq 0 (se_sections e v))) /\
  (forall x p, In x (se_windings e) -> (p < w_parallels x)%nat ->
     Qsum (map (section_share_of (w_name x) p) (conduction_sections ss)) == 1).
Proof.
  intros e ss HI HS HA E. destruct (sections_got e HI HS HA ss E) as (out & F2 & G & TH & NM & AD & LV & NN).
  split; [exact AD|]. split; [exact LV|]. split; [exact NM|].
  intros x p Hin Hp. apply In_nth_error in Hin. destruct Hin as (w & Hw). destruct HS as [ND _].
  rewrite (of_winding_shares e ND w x p Hw _ _ F2). destruct (G w x Hw) as (f & _ & Hh & _). now apply Hh.
Qed.

(** A stack of sections that is no longer than the window stays inside it. *)
Theorem C72_sections_inside : forall o ss edge length,
  adjoin o edge ss -> Forall (fun s => 0 <= extent o s) ss -> Qsum (map (extent o) ss) <= length ->
  Forall (fun s => if is_overlapping o
                   then edge <= fst (s_center s) - extent o s / 2 /\ fst (s_center s) + extent o s / 2 <= edge + length
                   else edge - length <= snd (s_center s) - extent o s / 2 /\ snd (s_center s) + extent o s / 2 <= edge) ss.
Proof.
  intros o ss. induction ss as [|s ss IH]; intros edge length A P L; constructor; inversion P as [|? ? P1 P2]; subst.
  - cbn [adjoin map Qsum] in *. destruct A as [A _].
    assert (NN : 0 <= Qsum (map (extent o) ss)).
    { clear -P2. induction P2; cbn [map Qsum]; lra. }
    assert (E2 : extent o s == extent o s / 2 + extent o s / 2) by field.
    destruct (is_overlapping o); lra.
  - cbn [adjoin map Qsum] in *. destruct A as [_ A].
    specialize (IH (if is_overlapping o then edge + extent o s else edge - extent o s) (length - extent o s) A P2 ltac:(lra)).
    eapply Forall_impl; [|exact IH]. cbn beta. intros s0 H0. destruct (is_overlapping o); lra.
Qed.

(** C71: all the sections of a coil, with their insulation. *)
Theorem C71_coil_in_layers : forall e sections,
  sane (le_windings e) -> insulated e ->
  between_conduction false (map (fun s => is_conduction (s_type s)) sections) ->
  Forall (layable (le_windings e)) (conduction_sections sections) ->
  exists blocks, wind_by_rectangular_layers e sections = Ok (List.concat blocks) /\
    Forall2 (layered_coil (le_windings e)) sections blocks /\
    forall w p, share w p (List.concat blocks) == Qsum (map (section_share_of w p) (conduction_sections sections)).
Proof.
  intros e sections HS HI HB HL. destruct (layers_from_ok e sections HS HI HB HL [] sections eq_refl) as (blocks & E & F & _).
  exists blocks. split; [exact E|]. split; [exact F|]. intros w p. eapply coil_shares; eassumption.
Qed.

(** C03: a coil wound from its sections down to its turns.  Once its sections fit, its layers do too, and then either
    the turns are refused or each of the [N] turns of each parallel of each winding is laid once, and numbered from 0 to [N - 1] in the
    order it is laid; no two turns of the coil share a name. *)
Theorem C03_whole_coil : forall se le te ss override,
  le_windings le = se_windings se -> te_windings te = se_windings se ->
  insulated_sections se -> insulated le -> sane (se_windings se) -> Forall sized (se_windings se) -> asked se ->
  between_conduction false (map (fun x => is_conduction (fst x)) (se_items se)) ->
  le_real le = false ->
  (forall w x, nth_error (se_windings se) w = Some x ->
     choose_section_style (override w) (w_turns x) (Z.of_nat (w_parallels x)) (Z.of_nat (se_sections se w)) = Ok (se_style se w) /\
     (Z.of_nat (se_sections se w) <= w_turns x * Z.of_nat (w_parallels x) < 20000000000)%Z) ->
  (forall l w, In w (te_windings te) -> 0 < te_pitch te l (w_height w)) ->
  wind_by_rectangular_sections se = Ok (Some ss) ->
  exists ls, wind_by_rectangular_layers le ss = Ok ls /\
    (wind_by_rectangular_turns te ls = Ok None \/
     exists ts, wind_by_rectangular_turns te ls = Ok (Some ts) /\ NoDup (map t_name ts) /\
       forall x p, In x (se_windings se) -> (p < w_parallels x)%nat ->
         map t_name (turns_of (w_name x) p ts) = map (turn_name (w_name x) p) (seq 0 (Z.to_nat (w_turns x)))).
Proof.
  intros se le te ss override EL ET HIs HIl HS HZ HA HB HR HC HPi E.
  destruct (sections_got se HIs HS HA ss E) as (out & F2 & G & TH & NM & AD & LV & NN).
  assert (HSl : sane (le_windings le)) by now rewrite EL.
  pose proof (thinned_between _ _ TH false false (fun H => H) HB) as HB2.
  rewrite Forall_forall in HZ.
  assert (HH : forall s, In s (conduction_sections ss) -> exists w x ph pr, nth_error (se_windings se) w = Some x /\
     In (ph, pr) (of_winding w out) /\ section_of se s (w, (ph, pr))).
  { clear -F2. induction F2 as [|s [w [ph pr]] cs out Hs F2 IH]; intros s0 H0; [destruct H0|]. destruct H0 as [<-|H0].
    - destruct Hs as (x & Hx & Hrest). exists w, x, ph, pr. split; [assumption|]. split; [apply In_of_winding; now left|].
      exists x. auto.
    - destruct (IH s0 H0) as (w' & x & ph' & pr' & H1 & H2 & H3). exists w', x, ph', pr'. split; [assumption|]. split; [|assumption].
      unfold of_winding in *. cbn [filter fst]. destruct (Nat.eqb w w'); [now right|assumption]. }
  assert (HG : forall w x ph pr, nth_error (se_windings se) w = Some x -> In (ph, pr) (of_winding w out) ->
     honest (w_turns x) (w_parallels x) (ph, pr) /\ 0 < Qsum pr /\ inject_Z (w_turns x) * Qsum pr < 20000000000 /\
     (se_style se w = WIND_BY_CONSECUTIVE_TURNS \/ even (w_turns x) pr)).
  { intros w x ph pr Hx Hin. destruct (G w x Hx) as (f & Es & Hh & Ho). destruct (HC w x Hx) as [Hst [Hle Hbig]].
    destruct HS as [_ HT]. rewrite Forall_forall in HT. specialize (HT x (nth_error_In _ _ Hx)).
    pose proof (NQ (w_turns x) ltac:(lia)) as HNq.
    rewrite Forall_forall in Ho. specialize (Ho _ Hin). split; [assumption|].
    assert (HN0 : (0 < w_turns x)%Z) by lia. assert (HSl0 : (Z.of_nat (se_sections se w) < 20000000000)%Z) by lia.
    destruct (C43_no_empty_section (override w) (w_turns x) (w_parallels x) (se_sections se w) (se_style se w) (of_winding w out) f HN0 Hle HSl0 Hst Es) as [Hlen Hne].
    rewrite Forall_forall in Hne. specialize (Hne _ Hin). cbn [fst] in Hne.
    destruct Ho as (O1 & O2 & O3). cbn [fst snd] in *.
    assert (Hpos : 0 < inject_Z (w_turns x) * Qsum pr).
    { rewrite <- O3. change 0 with (inject_Z 0). apply inj_lt. lia. }
    split; [setoid_replace 0 with (inject_Z (w_turns x) * 0) in Hpos by ring; now apply Qmult_lt_l in Hpos|].
    pose proof (fresh_wholes (w_turns x) (w_parallels x) ltac:(lia)) as Hfw.
    assert (Hfk : Forall (fun k => 0 <= k)%Z (repeat (w_turns x) (w_parallels x))) by (apply Forall_repeat; lia).
    destruct (whole_counts (w_turns x) pr ltac:(lia) O2) as (ts & T1 & T2).
    split.
    - rewrite (Qsum_wholes _ _ _ HN0 T1). change 20000000000 with (inject_Z 20000000000). apply inj_lt.
      destruct (split_none_spec (w_turns x) ltac:(lia) (repeat (1, None) (se_sections se w)) 0 (se_sections se w) (fresh (w_parallels x))
                  (repeat (w_turns x) (w_parallels x)) (se_style se w)) as (o & fin & tss & kf & E1 & Ho1 & Hl1 & Hf1 & Hkf & Hlf & Hcc & _).
      { now rewrite repeat_length. } { exact Hfw. } { exact Hfk. }
      { apply Forall_repeat. cbn. split; [lra|reflexivity]. }
      unfold split_evenly in Es. rewrite Es in E1. injection E1 as <- <-.
      assert (X : exists ts', slot_got (w_turns x) (ph, pr) ts' /\ In ts' tss).
      { clear -Ho1 Hin. induction Ho1 as [|o' t o tss Hg Ho1 IH]; [destruct Hin|]. destruct Hin as [->|Hin].
        - exists t. split; [assumption|now left].
        - destruct (IH Hin) as (t' & ? & ?). exists t'. split; [assumption|now right]. }
      destruct X as (ts' & (X1 & X2 & X3) & X4). cbn [snd] in X1.
      assert (ts' = ts) by (rewrite <- (wholes_map _ HN0 _ _ X1), <- (wholes_map _ HN0 _ _ T1); reflexivity). subst ts'.
      assert (Each : forall p, (nth p ts 0 <= w_turns x)%Z).
      { intros p. specialize (Hcc p). assert (nth p (repeat (w_turns x) (w_parallels x)) 0 <= w_turns x)%Z.
        { destruct (nth_in_or_default p (repeat (w_turns x) (w_parallels x)) 0%Z) as [Hi|Hi]; [apply repeat_spec in Hi; lia|lia]. }
        assert (0 <= nth p kf 0)%Z.
        { destruct (nth_in_or_default p kf 0%Z) as [Hi|Hi]; [rewrite Forall_forall in Hkf; now apply Hkf|lia]. }
        assert (nth p ts 0 <= Zsum (map (fun t => nth p t 0) tss))%Z; [|lia].
        assert (NNt : Forall (Forall (fun t => 0 <= t)%Z) tss).
        { clear -Ho1. induction Ho1 as [|? ? ? ? (_ & ? & _) ? IH]; constructor; auto. }
        clear -X4 NNt. induction NNt as [|t tss Ht NNt IH]; [destruct X4|]. cbn [map Zsum].
        assert (0 <= nth p t 0)%Z.
        { destruct (nth_in_or_default p t 0%Z) as [Hi|Hi]; [rewrite Forall_forall in Ht; now apply Ht|lia]. }
        assert (0 <= Zsum (map (fun t => nth p t 0) tss))%Z.
        { apply Zsum_nonneg. apply Forall_map. eapply Forall_impl; [|exact NNt]. intros u Hu.
          destruct (nth_in_or_default p u 0%Z) as [Hi|Hi]; [rewrite Forall_forall in Hu; now apply Hu|lia]. }
        destruct X4 as [->|X4]; [lia|]. specialize (IH X4). lia. }
      assert (Lt : List.length ts = w_parallels x) by (rewrite <- (wholes_length _ _ _ T1); exact O1).
      assert (Bd : (Zsum ts <= w_turns x * Z.of_nat (List.length ts))%Z); [|rewrite Lt in Bd; lia].
      clear -Each. induction ts as [|t ts IH]; [cbn; lia|]. pose proof (Each 0%nat) as E0. cbn [nth] in E0.
      assert (IH2 : (Zsum ts <= w_turns x * Z.of_nat (List.length ts))%Z) by (apply IH; intros p; apply (Each (S p))).
      cbn [Zsum List.length]. rewrite Nat2Z.inj_succ, Z.mul_succ_r. lia.
    - destruct (se_style se w) eqn:Est; [now left|right].
      pose proof (split_rowed (w_turns x) ltac:(lia) (se_sections se w) 0 (se_sections se w) (fresh (w_parallels x))
                    (repeat (w_turns x) (w_parallels x)) (w_turns x) (of_winding w out) f eq_refl ltac:(lia) Hfw Hfk (fresh_rowed _ _) Es) as R.
      rewrite Forall_forall in R. destruct (R _ Hin) as (ts' & j & R1 & R2). cbn [snd] in R1.
      assert (ts' = ts) by (rewrite <- (wholes_map _ HN0 _ _ R1), <- (wholes_map _ HN0 _ _ T1); reflexivity). subst ts'.
      eapply nonzero_even; try eassumption.
      assert (Pz : (0 < Zsum ts)%Z).
      { rewrite <- inj_lt. rewrite <- (Qsum_wholes _ _ _ HN0 T1). exact Hpos. }
      exact (zero_not_empty (w_turns x) (ph, pr) ts ltac:(lia) T1 Pz T2). }
  assert (HLy : Forall (layable (le_windings le)) (conduction_sections ss)).
  { apply Forall_forall. intros s Hs. destruct (HH s Hs) as (w & x & ph & pr & Hx & Hin & (x' & Hx' & S1 & S2 & S3 & S4 & S5 & S6)).
    cbn [fst snd] in *. assert (x' = x) by congruence. subst x'.
    destruct (HG w x ph pr Hx Hin) as ((O1 & O2 & O3) & G1 & G2 & _). cbn [fst snd] in *.
    assert (Hinx : In x (se_windings se)) by (eapply nth_error_In; eassumption). destruct (HZ x Hinx) as (Z1 & Z2 & Z3).
    rewrite EL. exists x, pr. split; [assumption|]. split; [now apply HZ|]. split; [assumption|]. split; [assumption|].
    split; [assumption|]. split; [assumption|]. split; [assumption|]. split; [assumption|]. split; [assumption|].
    rewrite Forall_forall in NN. specialize (NN s Hs).
    destruct (is_overlapping (g_orientation (se_group se))).
    - split; [lra|now right].
    - destruct NN as [NN|NN]; [|discriminate]. split; [assumption|now left]. }
  destruct (layers_from_ok le ss HSl HIl HB2 HLy [] ss eq_refl) as (blocks & EB & FB & WB).
  specialize (WB HR).
  assert (HWd : Forall (windable (le_windings le)) (conduction (List.concat blocks))).
  { apply WB. apply Forall_forall. intros s Hs. destruct (HH s Hs) as (w & x & ph & pr & Hx & Hin & (x' & Hx' & S1 & S2 & _)).
    cbn [fst snd] in *. assert (x' = x) by congruence. subst x'.
    destruct (HG w x ph pr Hx Hin) as (_ & _ & _ & [G3|G3]).
    - left. now rewrite S2, G3.
    - right. rewrite EL. exists x, pr. split; [eapply nth_error_In; eassumption|]. split; assumption. }
  exists (List.concat blocks). split; [exact EB|].
  destruct (C03_rectangular_all_or_nothing te (List.concat blocks)) as [N0|(ts & Et & (W1 & W2 & W3))].
  - now rewrite ET.
  - intros l w _ Hw. split; [|now apply HPi]. rewrite ET in Hw. now apply HZ.
  - rewrite ET, <- EL. exact HWd.
  - now left.
  - right. exists ts. split; [exact Et|]. split; [exact W2|]. intros x p Hx Hp.
    rewrite ET in W1. destruct (W1 x p Hx) as (n & Nm & Ns). rewrite Nm. do 2 f_equal.
    rewrite (coil_shares _ _ _ _ _ FB) in Ns.
    apply In_nth_error in Hx. destruct Hx as (w & Hw).
    pose proof HS as [ND HT]. rewrite (of_winding_shares se ND w x p Hw _ _ F2) in Ns.
    destruct (G w x Hw) as (f & _ & Hh & _). rewrite (Hh p Hp) in Ns.
    rewrite Qmult_1_r in Ns. rewrite inj_eq in Ns. lia.
Qed.

(** * A coil of two windings, interleaved *)

Definition mm (n : Z) : Q := inject_Z n / 1000.
Definition demo_windings : list winding :=
  [mkWinding "P" 6 3 ROUND (mm 1) (mm 1); mkWinding "S" 3 1 RECTANGULAR (mm 2) (mm 1)].
Definition demo_tape : section := mkSection "" INSULATION [] CONTIGUOUS None None (0, 0) (0, 0) (mm 1, mm 10).
Definition demo_sections : section_env :=
  mkSectionEnv demo_windings (mkGroup (mm 10, 0) (mm 14, mm 10) OVERLAPPING)
    [(CONDUCTION, (0%nat, mm 3)); (INSULATION, (0%nat, 0)); (CONDUCTION, (1%nat, mm 4)); (INSULATION, (0%nat, 0)); (CONDUCTION, (0%nat, mm 3))]
    (fun w => if Nat.eqb w 0 then WIND_BY_CONSECUTIVE_PARALLELS else WIND_BY_CONSECUTIVE_TURNS)
    (fun w => if Nat.eqb w 0 then 2%nat else 1%nat) [(mm 1, mm 1); (mm 1, mm 1); (mm 1, mm 1)]
    (fun a b => if Nat.eqb a b then None else Some demo_tape) (fun _ => OVERLAPPING).
Definition demo_layers (real : bool) : layer_env :=
  mkLayerEnv demo_windings (fun _ => CENTERED) (fun _ => None) (fun _ => None)
    (fun _ _ => Some [mkLayer "" None INSULATION [] OVERLAPPING None None (0, 0) (mm 1, mm 10)]) false false real.
Definition demo_turns : turn_env :=
  mkTurnEnv demo_windings false 10 (fun _ => ORDER_U) (fun _ _ => Some (mm 50)) (fun _ h => h) (fun _ => None).

Example C03_whole_coil_witness :
  insulated_sections demo_sections /\ insulated (demo_layers false) /\ sane demo_windings /\ Forall sized demo_windings /\
  asked demo_sections /\ between_conduction false (map (fun x => is_conduction (fst x)) (se_items demo_sections)) /\
  (forall w x, nth_error demo_windings w = Some x ->
     choose_section_style None (w_turns x) (Z.of_nat (w_parallels x)) (Z.of_nat (se_sections demo_sections w)) = Ok (se_style demo_sections w) /\
     (Z.of_nat (se_sections demo_sections w) <= w_turns x * Z.of_nat (w_parallels x) < 20000000000)%Z) /\
  (exists ss ls ts, wind_by_rectangular_sections demo_sections = Ok (Some ss) /\
     wind_by_rectangular_layers (demo_layers false) ss = Ok ls /\ wind_by_rectangular_turns demo_turns ls = Ok (Some ts) /\
     List.length ss = 5%nat /\ List.length ls = 7%nat /\ List.length ts = 21%nat).
Proof.
  split; [|split; [|split; [|split; [|split; [|split; [|split]]]]]].
  - intros i j t. cbn. destruct (Nat.eqb i j); [discriminate|]. intros [= <-]. reflexivity.
  - split; [discriminate|]. intros i j ts [= <-]. constructor; [reflexivity|constructor].
  - split; [|repeat constructor; cbn; lia]. repeat constructor; cbn; intuition discriminate.
  - apply Forall_forall. intros w [<-|[<-|[]]]; (split; [reflexivity|split; [reflexivity|]]); cbn; intuition discriminate || reflexivity.
  - split; [|split].
    + intros w. cbn. lia.
    + intros w. cbn. destruct w as [|[|w]]; cbn; intros; [split; [auto|reflexivity]|split; [auto|reflexivity]|lia].
    + repeat constructor; cbn; discriminate.
  - cbn. auto.
  - intros w x H. destruct w as [|[|w]]; [| |destruct w; discriminate]; injection H as <-; (split; [vm_compute; reflexivity|vm_compute; split; [discriminate|reflexivity]]).
  - do 3 eexists. split; [vm_compute; reflexivity|]. split; [vm_compute; reflexivity|]. split; [vm_compute; reflexivity|].
    repeat split.
Qed.

Example C72_witness : exists ss, wind_by_rectangular_sections demo_sections = Ok (Some ss) /\
  Forall (fun s => 0 <= extent OVERLAPPING s) ss /\ Qsum (map (extent OVERLAPPING) ss) <= fst (g_size (se_group demo_sections)).
Proof.
  eexists. split; [vm_compute; reflexivity|]. split; [repeat constructor; cbn; discriminate|]. vm_compute. discriminate.
Qed.

(** With the real winding geometry the layers of every section of a winding with parallels are wound by consecutive parallels, even those
    that hold more of a parallel than of another: two turns and four parallels in three sections are
    wound with three turns of one parallel and one of another. *)
Theorem C03_real_geometry_refuted : exists se le te ss ls ts x,
  insulated_sections se /\ insulated le /\ sane (se_windings se) /\ Forall sized (se_windings se) /\ asked se /\
  le_windings le = se_windings se /\ te_windings te = se_windings se /\ le_real le = true /\ te_real te = true /\
  choose_section_style None (w_turns x) (Z.of_nat (w_parallels x)) (Z.of_nat (se_sections se 0)) = Ok (se_style se 0) /\
  wind_by_rectangular_sections se = Ok (Some ss) /\ wind_by_rectangular_layers le ss = Ok ls /\
  wind_by_rectangular_turns te ls = Ok (Some ts) /\
  In x (se_windings se) /\ (1 < w_parallels x)%nat /\ w_turns x = 2%Z /\ List.length (turns_of (w_name x) 1 ts) = 3%nat /\
  List.length (turns_of (w_name x) 2 ts) = 1%nat.
Proof.
  set (ws := [mkWinding "P" 2 4 ROUND (mm 1) (mm 1)]).
  set (se := mkSectionEnv ws (mkGroup (mm 10, 0) (mm 14, mm 10) OVERLAPPING)
    [(CONDUCTION, (0%nat, mm 3)); (CONDUCTION, (0%nat, mm 3)); (CONDUCTION, (0%nat, mm 3))]
    (fun _ => WIND_BY_CONSECUTIVE_TURNS) (fun _ => 3%nat) [(0, 0); (0, 0); (0, 0)] (fun _ _ => None) (fun _ => OVERLAPPING)).
  set (le := mkLayerEnv ws (fun _ => CENTERED) (fun _ => None) (fun _ => None) (fun _ _ => None) false false true).
  set (te := mkTurnEnv ws true 10 (fun _ => ORDER_U) (fun _ _ => Some (mm 50)) (fun _ h => h) (fun _ => None)).
  exists se, le, te. do 3 eexists. exists (mkWinding "P" 2 4 ROUND (mm 1) (mm 1)).
  split; [discriminate|]. split; [split; discriminate|].
  split; [split; repeat constructor; cbn; intuition discriminate|].
  split; [repeat constructor|].
  split.
  { split; [|split; [|repeat constructor; discriminate]].
    - intros w. cbn. lia.
    - intros w Hw. change (w < 1)%nat in Hw. destruct w; [split; [now left|reflexivity]|lia]. }
  do 4 (split; [reflexivity|]). split; [vm_compute; reflexivity|].
  split; [vm_compute; reflexivity|]. split; [vm_compute; reflexivity|]. split; [vm_compute; reflexivity|].
  split; [now left|]. split; [cbn; lia|]. repeat split.
Qed.

(** A layer whose parallels have not as many turns as each other is not wound as asked by consecutive parallels: fifteen turns of one
    parallel and one of another make thirty. *)
Theorem C03_uneven_parallels_refuted : exists te l ts x props,
  sane (te_windings te) /\ te_real te = false /\ In x (te_windings te) /\ l_partials l = [(w_name x, props)] /\
  List.length props = w_parallels x /\ Forall (whole (w_turns x)) props /\ l_style l = Some WIND_BY_CONSECUTIVE_PARALLELS /\
  inject_Z (w_turns x) * Qsum props == 16 /\
  wind_by_rectangular_turns te [l] = Ok (Some ts) /\ List.length ts = 30%nat.
Proof.
  set (ws := [mkWinding "P" 25 2 ROUND (mm 1) (mm 1)]).
  set (te := mkTurnEnv ws false 10 (fun _ => ORDER_U) (fun _ _ => Some (mm 50)) (fun _ h => h) (fun _ => None)).
  exists te, (mkLayer "P section 0 layer 0" (Some "P section 0"%string) CONDUCTION [("P"%string, [3#5; 1#25])] OVERLAPPING
                (Some WIND_BY_CONSECUTIVE_PARALLELS) (Some CENTERED) (mm 10, 0) (mm 1, mm 40)).
  eexists. exists (mkWinding "P" 25 2 ROUND (mm 1) (mm 1)), [3#5; 1#25].
  split; [split; repeat constructor; cbn; intuition discriminate|]. split; [reflexivity|]. split; [now left|].
  do 2 (split; [reflexivity|]). split.
  { repeat constructor; [exists 15%Z|exists 1%Z]; (split; [lia|reflexivity]). }
  split; [reflexivity|]. split; [reflexivity|]. split; [vm_compute; reflexivity|]. reflexivity.
Qed.

(** A number of layers set in advance is not adapted to the turns: two turns in two parallels cannot be wound on three layers. *)
Theorem C71_preset_layers_refuted : exists le s x props,
  sane (le_windings le) /\ insulated le /\ In x (le_windings le) /\ sized x /\ s_partials s = [(w_name x, props)] /\
  List.length props = w_parallels x /\ Forall (whole (w_turns x)) props /\ 3 < inject_Z (w_turns x) * Qsum props /\
  s_number_layers s = Some 3%Z /\
  layers_of_section le s = Throw "Parallel proportion in layer cannot be all be 0".
Proof.
  set (ws := [mkWinding "P" 2 2 ROUND (mm 1) (mm 1)]).
  exists (mkLayerEnv ws (fun _ => CENTERED) (fun _ => None) (fun _ => None) (fun _ _ => None) false false false),
    (mkSection "P section 0" CONDUCTION [("P"%string, [1; 1])] OVERLAPPING (Some WIND_BY_CONSECUTIVE_PARALLELS) (Some 3%Z) (0, 0)
       (mm 10, 0) (mm 3, mm 10)), (mkWinding "P" 2 2 ROUND (mm 1) (mm 1)), [1; 1].
  split; [split; repeat constructor; cbn; intuition discriminate|]. split; [split; discriminate|]. split; [now left|].
  split; [repeat constructor|]. do 2 (split; [reflexivity|]). split.
  { repeat constructor; exists 2%Z; (split; [lia|reflexivity]). }
  repeat split.
Qed.

(** The demo coil's layers are windable, so C70 and C71 apply to them. *)
Example C70_C71_witness : exists ss ls,
  wind_by_rectangular_sections demo_sections = Ok (Some ss) /\ wind_by_rectangular_layers (demo_layers false) ss = Ok ls /\
  between_conduction false (map (fun s => is_conduction (s_type s)) ss) /\
  Forall (layable demo_windings) (conduction_sections ss) /\
  Forall (windable demo_windings) (conduction ls) /\ List.length (conduction ls) = 5%nat.
Proof.
  destruct C03_whole_coil_witness as (_ & _ & _ & HZ & _).
  do 2 eexists. split; [vm_compute; reflexivity|]. split; [vm_compute; reflexivity|]. split; [cbn; auto|]. split; [|split; [|reflexivity]].
  - Local Ltac turns_ := repeat apply Forall_cons; [..|apply Forall_nil];
      match goal with |- whole _ ?q => first [exists 1%Z; split; [lia|reflexivity] | exists 2%Z; split; [lia|reflexivity]
        | exists 3%Z; split; [lia|reflexivity] | exists 0%Z; split; [lia|reflexivity]] end.
    inversion HZ as [|? ? Z1 HZ2]; inversion HZ2 as [|? ? Z2 _]; subst.
    apply Forall_forall. intros s [<-|[<-|[<-|[]]]];
    [exists (mkWinding "P" 6 3 ROUND (mm 1) (mm 1))|exists (mkWinding "S" 3 1 RECTANGULAR (mm 2) (mm 1))|exists (mkWinding "P" 6 3 ROUND (mm 1) (mm 1))];
    eexists; (split; [cbn; auto|]); (split; [assumption|]); (split; [reflexivity|]); (split; [reflexivity|]); (split; [turns_|]);
    repeat (split; [first [reflexivity|discriminate]|]); left; discriminate.
  - apply Forall_forall. intros s [<-|[<-|[<-|[<-|[<-|[]]]]]];
    [exists (mkWinding "P" 6 3 ROUND (mm 1) (mm 1))|exists (mkWinding "P" 6 3 ROUND (mm 1) (mm 1))
    |exists (mkWinding "S" 3 1 RECTANGULAR (mm 2) (mm 1))|exists (mkWinding "P" 6 3 ROUND (mm 1) (mm 1))|exists (mkWinding "P" 6 3 ROUND (mm 1) (mm 1))];
    do 3 eexists; (split; [cbn; auto|]); (split; [reflexivity|]); (split; [reflexivity|]); (split; [turns_|]);
    (split; [reflexivity|]); (split; [reflexivity|]); cbn; intros;
    first [discriminate | exists 2%Z; split; [lia|]; split; [left; reflexivity|]; repeat constructor; right; reflexivity
          | exists 1%Z; split; [lia|]; split; [left; reflexivity|]; repeat constructor; right; reflexivity].
Qed.

(** A toroid with a layer of four turns in two parallels. *)
Definition demo_round : round_env :=
  mkRoundEnv [mkWinding "P" 4 2 ROUND (mm 1) (mm 1)] false (fun _ => ORDER_U) false (mm 8)
    (fun distance radius => if Qle_bool radius 0 then None else Some (57 * distance / radius))
    (fun _ _ => (0, 0)) (fun _ => Some (mm 30)).
Definition demo_round_layer : layer :=
  mkLayer "P section 0 layer 0" (Some "P section 0"%string) CONDUCTION [("P"%string, [1; 1])] OVERLAPPING
    (Some WIND_BY_CONSECUTIVE_PARALLELS) (Some SPREAD) (mm 1 / 2, 180) (mm 1, 180).

Example C70_toroid_witness : exists ts,
  sane (re_windings demo_round) /\ (forall x, re_length demo_round x <> None) /\
  windable (re_windings demo_round) demo_round_layer /\ l_orientation demo_round_layer = OVERLAPPING /\
  wind_by_round_turns demo_round [demo_round_layer] = Ok (Some ts) /\ List.length ts = 8%nat /\
  (exists w angle, wire_angle demo_round w demo_round_layer = Some angle /\ 0 <= angle /\
     inject_Z (Z.of_nat (List.length ts)) * angle <= arc demo_round demo_round_layer angle).
Proof.
  eexists. split; [split; repeat constructor; cbn; intuition discriminate|]. split; [discriminate|]. split.
  { exists (mkWinding "P" 4 2 ROUND (mm 1) (mm 1)), [1; 1], SPREAD, "P section 0"%string. split; [now left|].
    do 2 (split; [reflexivity|]). split; [repeat constructor; exists 4%Z; (split; [lia|reflexivity])|].
    do 2 (split; [reflexivity|]). intros _. exists 4%Z. split; [lia|]. split; [left; reflexivity|].
    constructor; [right; reflexivity|constructor; [right; reflexivity|constructor]]. }
  split; [reflexivity|]. split; [vm_compute; reflexivity|]. split; [reflexivity|].
  exists (mkWinding "P" 4 2 ROUND (mm 1) (mm 1)). eexists. split; [vm_compute; reflexivity|]. split; vm_compute; discriminate.
Qed.

Print Assumptions C72_sections_tile.
Print Assumptions C72_sections_inside.
Print Assumptions C71_coil_in_layers.
Print Assumptions C03_whole_coil.
Print Assumptions C03_real_geometry_refuted.
Print Assumptions C03_uneven_parallels_refuted.
Print Assumptions C71_preset_layers_refuted.
