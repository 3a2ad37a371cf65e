(** C36 (settings part) and C49: resetting and setting the settings. *)
From Coq Require Import List String Bool QArith Lia.
From Verif Require Import Base QAux SettingsModel.
Import ListNotations.
Open Scope string_scope.

(** * Vocabulary
    A call [set_x(v)] is the pair of the name [x] and [v].  [rejected] is the
    documented precondition of the two setters that check their argument. *)
Definition below (v : value) (bound : Q) : Prop :=
  exists q, v = VNum q /\ (q < bound)%Q.
Definition rejected (x : string) (v : value) : Prop :=
  (x = "core_adviser_saturation_margin" /\ below v 1) \/
  (x = "core_adviser_saturation_derating_temperature" /\ below v (-27315 # 100)).
(** What [get_x] must return after the calls [h], given what it returned before:
    the value of the last call of [set_x] that was not rejected. *)
Inductive last_written (x : string) (before : option value) :
  list (string * value) -> option value -> Prop :=
| lw_none : last_written x before [] before
| lw_this h v r : last_written x before h r -> ~ rejected x v ->
    last_written x before (h ++ [(x, v)])%list (Some v)
| lw_rejected h v r : last_written x before h r -> rejected x v ->
    last_written x before (h ++ [(x, v)])%list r
| lw_other h y v r : last_written x before h r -> y <> x ->
    last_written x before (h ++ [(y, v)])%list r.

Definition is_setting (x : string) : Prop :=
  (exists v, get ("get_" ++ x) fresh = Some v) /\ x <> "core_losses_model_names".
Definition calls (h : list (string * value)) : list (string * value) :=
  map (fun xv => ("set_" ++ fst xv, snd xv)) h.

(** * Lemmas *)
Fixpoint last_assigned (l : list (string * value)) (m : string) : option value :=
  match l with
  | [] => None
  | (k, v) :: r => match last_assigned r m with
                   | Some w => Some w
                   | None => if String.eqb m k then Some v else None
                   end
  end.
Lemma assigns_last l : forall s m,
  assigns l s m = match last_assigned l m with Some v => v | None => s m end.
Proof.
  induction l as [|[k v] l IH]; intros s m; [reflexivity|].
  unfold assigns in *. simpl. rewrite IH. destruct (last_assigned l m); [reflexivity|].
  unfold assign. now destruct (String.eqb m k).
Qed.
Lemma named_In l n m : named l n = Some m -> In (n, m) l.
Proof.
  induction l as [|[k v] l IH]; simpl; [discriminate|].
  destruct (String.eqb n k) eqn:E.
  - intros H. injection H as ->. apply String.eqb_eq in E as ->. now left.
  - intros H. right. now apply IH.
Qed.
Definition covered (m : string) : bool :=
  match last_assigned reset_assignments m with Some _ => true | None => false end.
Lemma reset_covers : forallb (fun gm => covered (snd gm)) getters = true.
Proof. vm_compute. reflexivity. Qed.
Lemma reset_agrees :
  map (fun gm => last_assigned reset_assignments (snd gm)) getters
  = map (fun gm => Some (fresh (snd gm))) getters.
Proof. vm_compute. reflexivity. Qed.
Lemma map_eq_In {A B} (f g : A -> B) l : map f l = map g l -> forall x, In x l -> f x = g x.
Proof.
  induction l as [|a l IH]; simpl; [easy|]. intros H x [<-|I]; injection H as H1 H2; auto.
Qed.

Lemma eqb_prefix p : forall a b, String.eqb (p ++ a) (p ++ b) = String.eqb a b.
Proof. induction p as [|c p IH]; intros a b; simpl; [reflexivity|]. now rewrite Ascii.eqb_refl, IH. Qed.

(** The tables: [set_x] and [get_x] are about one member, and no other. *)
Definition strip (s : string) : string := substring 4 (String.length s - 4) s.
Lemma substring_all b : substring 0 (String.length b) b = b.
Proof. induction b as [|c b IH]; simpl; [reflexivity|now rewrite IH]. Qed.
Lemma strip_set x : strip ("set_" ++ x) = x.
Proof. unfold strip. cbn. rewrite PeanoNat.Nat.sub_0_r. apply substring_all. Qed.
Lemma strip_get x : strip ("get_" ++ x) = x.
Proof. unfold strip. cbn. rewrite PeanoNat.Nat.sub_0_r. apply substring_all. Qed.
Definition pair_ok (st gt : string * string) : bool :=
  Bool.eqb (String.eqb (snd st) (snd gt)) (String.eqb (strip (fst st)) (strip (fst gt)))
  || negb (String.prefix "get_" (fst gt)).
Lemma tables_agree : forallb (fun st => forallb (pair_ok st) getters) setters = true.
Proof. vm_compute. reflexivity. Qed.
Lemma prefix_get x : String.prefix "get_" ("get_" ++ x) = true.
Proof. simpl. now destruct x. Qed.
Lemma same_member x y m m' :
  named setters ("set_" ++ x) = Some m -> named getters ("get_" ++ y) = Some m' ->
  String.eqb m m' = String.eqb x y.
Proof.
  intros S G. apply named_In in S, G.
  pose proof tables_agree as A. rewrite forallb_forall in A. specialize (A _ S). cbv beta in A.
  rewrite forallb_forall in A. specialize (A _ G).
  unfold pair_ok in A. cbn [fst snd] in A. rewrite prefix_get in A. cbn in A.
  rewrite orb_false_r in A. apply eqb_prop in A. rewrite A.
  f_equal; [apply strip_set|apply strip_get].
Qed.
Definition guarded_ok (m : string) (x : string) : bool :=
  forallb (fun gt => Bool.eqb (String.eqb m (snd gt)) (String.eqb x (strip (fst gt)))
                     || negb (String.prefix "get_" (fst gt))) getters.
Lemma guarded_member m x y m' : guarded_ok m x = true ->
  named getters ("get_" ++ y) = Some m' -> String.eqb m m' = String.eqb x y.
Proof.
  intros A G. apply named_In in G. unfold guarded_ok in A.
  rewrite forallb_forall in A. specialize (A _ G). cbn [fst snd] in A.
  rewrite prefix_get in A. cbn [negb] in A. rewrite orb_false_r in A. apply eqb_prop in A.
  now rewrite A, strip_get.
Qed.

Lemma set_stores x v s y m' :
  named getters ("get_" ++ y) = Some m' -> y <> "core_losses_model_names" ->
  match set ("set_" ++ x) v s with
  | Ok s' => s' m' = if String.eqb x y then v else s m'
  | Throw _ => (x <> y \/ rejected x v)
  | _ => False
  end.
Proof.
  intros G Y. unfold set.
  change "set_core_adviser_saturation_margin" with ("set_" ++ "core_adviser_saturation_margin").
  change "set_core_adviser_saturation_derating_temperature"
    with ("set_" ++ "core_adviser_saturation_derating_temperature").
  change "set_core_losses_preferred_model_name" with ("set_" ++ "core_losses_preferred_model_name").
  rewrite !eqb_prefix.
  assert (P : forall m, guarded_ok m x = true -> assign m v s m' = if String.eqb x y then v else s m').
  { intros m K. unfold assign. rewrite (String.eqb_sym m' m), (guarded_member m x y m' K G). reflexivity. }
  destruct (String.eqb x "core_adviser_saturation_margin") eqn:E1.
  { apply String.eqb_eq in E1. subst x.
    destruct v; try (apply P; vm_compute; reflexivity).
    destruct (Qlt_bool q 1) eqn:L; [|apply P; vm_compute; reflexivity].
    right. left. split; [reflexivity|]. exists q. split; [reflexivity|]. qb. exact L. }
  destruct (String.eqb x "core_adviser_saturation_derating_temperature") eqn:E2.
  { apply String.eqb_eq in E2. subst x.
    destruct v; try (apply P; vm_compute; reflexivity).
    destruct (Qlt_bool q (-27315 # 100)) eqn:L; [|apply P; vm_compute; reflexivity].
    right. right. split; [reflexivity|]. exists q. split; [reflexivity|]. qb. exact L. }
  destruct (String.eqb x "core_losses_preferred_model_name") eqn:E3.
  { apply String.eqb_eq in E3. subst x. unfold assign.
    assert (K : guarded_ok "_coreLossesModelNames" "core_losses_model_names" = true)
      by (vm_compute; reflexivity).
    pose proof (guarded_member _ _ _ _ K G) as Z.
    rewrite (String.eqb_sym m'), Z.
    destruct (String.eqb "core_losses_model_names" y) eqn:F.
    - apply String.eqb_eq in F. now subst y.
    - destruct (String.eqb "core_losses_preferred_model_name" y) eqn:F2; [|reflexivity].
      apply String.eqb_eq in F2. subst y. vm_compute in G. discriminate. }
  destruct (named setters ("set_" ++ x)) as [m|] eqn:S.
  - unfold assign. rewrite (String.eqb_sym m' m), (same_member _ _ _ _ S G). reflexivity.
  - left. intros ->.
    assert (K : forallb (fun gt =>
        negb (String.prefix "get_" (fst gt))
        || String.eqb (fst gt) "get_core_adviser_saturation_margin"
        || String.eqb (fst gt) "get_core_adviser_saturation_derating_temperature"
        || String.eqb (fst gt) "get_core_losses_model_names"
        || match named setters ("set_" ++ strip (fst gt)) with Some _ => true | None => false end) getters = true)
      by (vm_compute; reflexivity).
    rewrite forallb_forall in K. specialize (K _ (named_In _ _ _ G)). cbn [fst snd] in K.
    rewrite prefix_get, strip_get, S in K. cbn [negb orb] in K.
    change "get_core_adviser_saturation_margin" with ("get_" ++ "core_adviser_saturation_margin") in K.
    change "get_core_adviser_saturation_derating_temperature"
      with ("get_" ++ "core_adviser_saturation_derating_temperature") in K.
    change "get_core_losses_model_names" with ("get_" ++ "core_losses_model_names") in K.
    rewrite !eqb_prefix, E1, E2 in K. cbn [orb] in K. rewrite orb_false_r in K.
    apply String.eqb_eq in K. contradiction.
Qed.
Lemma set_accepts x v s : rejected x v -> exists e, set ("set_" ++ x) v s = Throw e.
Proof.
  intros [[-> (q & -> & L)]|[-> (q & -> & L)]]; unfold set; cbn [String.eqb append Ascii.eqb Bool.eqb].
  - assert (H : Qlt_bool q 1 = true) by (apply Qlt_bool_iff; exact L). rewrite H. eauto.
  - assert (H : Qlt_bool q (-27315 # 100) = true) by (apply Qlt_bool_iff; exact L). rewrite H. eauto.
Qed.

(** * C36 *)
(** After any calls of setters, and any other change of the members that have an
    accessor, a reset makes every getter return what it returns in a new program. *)
Theorem C36_reset_restores_every_setting : forall s g v,
  get g fresh = Some v -> get g (reset_members s) = Some v.
Proof.
  intros s g v. unfold get. destruct (named getters g) as [m|] eqn:G; [|discriminate]. simpl.
  intros H. injection H as <-.
  unfold reset_members. rewrite assigns_last.
  pose proof (map_eq_In _ _ _ reset_agrees _ (named_In _ _ _ G)) as K. cbn [snd] in K. now rewrite K.
Qed.
Theorem C36_reset_after_any_history : forall h g,
  get g (reset_members (after_setters h fresh)) = get g fresh.
Proof.
  intros h g. destruct (get g fresh) as [v|] eqn:G.
  - now apply C36_reset_restores_every_setting.
  - unfold get in *. destruct (named getters g); [discriminate|reflexivity].
Qed.
Example C36_witness :
  let s := after_setters [("set_coil_maximum_layers_planar", VNum 4);
                          ("set_core_adviser_saturation_margin", VNum (1 # 2));
                          ("set_core_adviser_saturation_margin", VNum 3)] fresh in
  get "get_coil_maximum_layers_planar" s = Some (VNum 4) /\
  get "get_core_adviser_saturation_margin" s = Some (VNum 3) /\
  get "get_coil_maximum_layers_planar" (reset_members s) = Some (VNum 32) /\
  List.length getters = 105%nat.
Proof. vm_compute. auto. Qed.

(** The public member [_debug] (src/support/Settings.h:224) survives a reset. *)
Theorem C36_debug_flag_refuted : exists s,
  fresh "_debug" = VBool false /\ s = assign "_debug" (VBool true) fresh /\
  reset_members s "_debug" = VBool true.
Proof. eexists. split; [|split; [reflexivity|]]; vm_compute; reflexivity. Qed.

(** * C49 *)
Theorem C49_last_write_wins : forall h x s r,
  is_setting x -> last_written x (get ("get_" ++ x) s) h r ->
  get ("get_" ++ x) (after_setters (calls h) s) = r.
Proof.
  intros h x s r [(v0 & D) X] L.
  assert (G : exists m, named getters ("get_" ++ x) = Some m).
  { unfold get in D. destruct (named getters ("get_" ++ x)); [eauto|discriminate]. }
  destruct G as (m & G). clear D v0.
  assert (Step : forall h y v, after_setters (calls (h ++ [(y, v)])%list) s
                 = set_quietly (after_setters (calls h) s) ("set_" ++ y, v)).
  { intros h' y v. unfold after_setters, calls. rewrite map_app, fold_left_app. reflexivity. }
  induction L as [|h v r L IH A|h v r L IH A|h y v r L IH A].
  - reflexivity.
  - rewrite Step. unfold set_quietly. cbn [fst snd].
    pose proof (set_stores x v (after_setters (calls h) s) x m G X) as P.
    destruct (set ("set_" ++ x) v (after_setters (calls h) s)) as [s'| | |]; try contradiction.
    + rewrite String.eqb_refl in P. unfold get. rewrite G. simpl. now rewrite P.
    + destruct P as [P|P]; contradiction.
  - rewrite Step. unfold set_quietly. cbn [fst snd].
    destruct (set_accepts x v (after_setters (calls h) s) A) as (e & ->). exact IH.
  - rewrite Step. unfold set_quietly. cbn [fst snd].
    pose proof (set_stores y v (after_setters (calls h) s) x m G X) as P.
    destruct (set ("set_" ++ y) v (after_setters (calls h) s)) as [s'| | |]; try contradiction; [|exact IH].
    apply String.eqb_neq in A. rewrite A in P. rewrite <- IH. unfold get. rewrite G. simpl. now rewrite P.
Qed.
(** The relation determines the result for every history. *)
Theorem C49_every_history_has_a_result : forall x b h, exists r, last_written x b h r.
Proof.
  intros x b h. induction h as [|[y v] h (r & IH)] using rev_ind; [exists b; constructor|].
  destruct (String.eqb y x) eqn:E.
  - apply String.eqb_eq in E. subst y.
    assert (D : rejected x v \/ ~ rejected x v).
    { unfold rejected, below.
      assert (B : forall bound, (exists q, v = VNum q /\ q < bound)%Q \/ ~ (exists q, v = VNum q /\ q < bound)%Q).
      { intros bound. destruct v; try (right; intros (q0 & K & _); discriminate).
        destruct (Qlt_le_dec q bound) as [L|L]; [left; eauto|right].
        intros (q0 & K & L'). injection K as <-. apply (Qlt_not_le _ _ L' L). }
      destruct (String.string_dec x "core_adviser_saturation_margin") as [->|N1].
      - destruct (B 1%Q) as [P|P]; [left; auto|].
        right. intros [[_ K]|[K _]]; [contradiction|discriminate].
      - destruct (String.string_dec x "core_adviser_saturation_derating_temperature") as [->|N2].
        + destruct (B (-27315 # 100)%Q) as [P|P]; [left; auto|].
          right. intros [[K _]|[_ K]]; [discriminate|contradiction].
        + right. intros [[K _]|[K _]]; contradiction. }
    destruct D; [exists r; now apply lw_rejected|exists (Some v); eapply lw_this; eauto].
  - exists r. apply lw_other; [exact IH|]. now apply String.eqb_neq.
Qed.
Example C49_witness :
  is_setting "core_adviser_saturation_margin" /\
  exists r, last_written "core_adviser_saturation_margin" (get "get_core_adviser_saturation_margin" fresh)
    [("core_adviser_saturation_margin", VNum 2); ("coil_try_rewind", VBool false);
     ("core_adviser_saturation_margin", VNum 0)] r /\ r = Some (VNum 2).
Proof.
  split; [split; [eexists; vm_compute; reflexivity|discriminate]|].
  eexists. split; [|reflexivity].
  apply (lw_rejected _ _ [("core_adviser_saturation_margin", VNum 2); ("coil_try_rewind", VBool false)]).
  - apply (lw_other _ _ [("core_adviser_saturation_margin", VNum 2)]); [|discriminate].
    apply (lw_this _ _ []) with (r := get "get_core_adviser_saturation_margin" fresh); [constructor|].
    intros [[_ (q & E & L)]|[E _]]; [|discriminate]. injection E as <-. now vm_compute in L.
  - left. split; [reflexivity|]. exists 0%Q. split; reflexivity.
Qed.
(** Choosing a preferred core-loss model replaces the list and keeps the four
    fallbacks behind it. *)
Theorem C49_preferred_core_loss_model_first : forall v s,
  exists s' fallbacks, set "set_core_losses_preferred_model_name" v s = Ok s' /\
    get "get_core_losses_model_names" s' = Some (VList (v :: fallbacks)) /\
    Forall (fun f => In f fallbacks)
      [VEnum "CoreLossesModels.PROPRIETARY"; VEnum "CoreLossesModels.LOSS_FACTOR";
       VEnum "CoreLossesModels.STEINMETZ"; VEnum "CoreLossesModels.ROSHEN"].
Proof.
  intros v s. eexists. eexists. split; [reflexivity|]. split; [vm_compute; reflexivity|].
  repeat constructor; simpl; tauto.
Qed.

Print Assumptions C36_reset_restores_every_setting.
Print Assumptions C36_reset_after_any_history.
Print Assumptions C36_debug_flag_refuted.
Print Assumptions C49_last_write_wins.
Print Assumptions C49_every_history_has_a_result.
Print Assumptions C49_preferred_core_loss_model_first.
