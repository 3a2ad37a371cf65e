(** * The material of a core: C180 to C182 *)
From Coq Require Import ZArith QArith List String Bool Lia.
From Verif Require Import Base MaterialModel.
Import ListNotations.
Local Open Scope outcome_scope.
Local Open Scope string_scope.

(** ** C180: the material that is resolved is the one last given *)

(** What the resolvers answer. *)
Definition answer {A} (o : outcome (core * A)) : outcome A :=
  match o with Ok r => Ok (snd r) | Throw w => Throw w | UB w => UB w | OutOfFuel => OutOfFuel end.

(** What was last given to a core: the field it was made with, or the last one put
    in by whatever means. *)
Fixpoint given (f : field) (h : list op) : field :=
  match h with
  | [] => f
  | SetMaterial m :: rest => given (One (Inline m)) rest
  | Assign g :: rest => given g rest
  | _ :: rest => given f rest
  end.

(** Operations that only read. *)
Definition reads (o : op) : bool :=
  match o with Resolve | Peek | ResolveAll => true | _ => false end.
Definition plain_set (o : op) : bool :=
  match o with SetMaterial _ => true | o => reads o end.
Definition writes_field (o : op) : bool :=
  match o with SetMaterial _ | Assign _ => true | o => reads o end.

Section Fixed.
Variable catalogue : string -> outcome material.

Lemma write_back_same : forall f m, resolve_field catalogue f = Ok m ->
  resolve_field catalogue (write_back f m) = Ok m.
Proof. intros [e|l] m H; cbn in *; [reflexivity|exact H]. Qed.

Lemma write_back_throw : forall f m g, resolve_field catalogue f = Ok m -> write_back f m = g ->
  resolve_field catalogue g = resolve_field catalogue f.
Proof. intros f m g H <-. rewrite H. now apply write_back_same. Qed.

Lemma step_read : forall c o, reads o = true ->
  resolve_field catalogue (made_of (step catalogue c o)) = resolve_field catalogue (made_of c).
Proof.
  assert (R : forall c, resolve_field catalogue (made_of (after c (resolve catalogue c))) =
                        resolve_field catalogue (made_of c)).
  { intros c. unfold resolve. destruct (resolve_field catalogue (made_of c)) eqn:E; cbn; rewrite ?E; try reflexivity.
    now apply write_back_same. }
  intros c o H. destruct o; try discriminate; cbn [step].
  - apply R.
  - unfold peek. destruct (memo c); [reflexivity|].
    destruct (resolve_field catalogue (made_of c)) eqn:E; cbn; rewrite ?E; try reflexivity.
    now apply write_back_same.
  - unfold resolve_all. destruct (made_of c) as [e|l] eqn:F.
    + unfold resolve. rewrite F. cbn [resolve_field].
      destruct (resolve_element catalogue e) eqn:E; cbn; rewrite ?F; cbn; rewrite ?E; reflexivity.
    + destruct l as [|e l]; [cbn; now rewrite F|].
      destruct (resolve_each catalogue (e :: l)); cbn; now rewrite F.
Qed.

(** However a core is read and set, the resolver answers what was last given. *)
Theorem C180_latest : forall h c, forallb writes_field h = true ->
  answer (resolve catalogue (run catalogue h c)) = resolve_field catalogue (given (made_of c) h).
Proof.
  assert (G : forall h c f, forallb writes_field h = true ->
    resolve_field catalogue (made_of c) = resolve_field catalogue f ->
    resolve_field catalogue (made_of (run catalogue h c)) = resolve_field catalogue (given f h)).
  { induction h as [|o h IH]; intros c f W E; [exact E|]. cbn in W. apply andb_prop in W. destruct W as [Wo W].
    unfold run. cbn [fold_left]. change (fold_left (step catalogue) h) with (run catalogue h).
    assert (Rd : reads o = true -> resolve_field catalogue (made_of (run catalogue h (step catalogue c o))) =
       resolve_field catalogue (given f h)).
    { intros R. apply IH; [exact W|]. now rewrite step_read. }
    destruct o; cbn [given]; try (now apply Rd); try discriminate; apply IH; auto. }
  intros h c W. rewrite <- (G h c (made_of c) W eq_refl).
  unfold resolve. destruct (resolve_field catalogue (made_of (run catalogue h c))); reflexivity.
Qed.

(** So does the const resolver, if the field is only set through the core. *)
Definition coherent (c : core) : Prop := forall m, memo c = Some m -> resolve_field catalogue (made_of c) = Ok m.

Lemma coherent_peek : forall c, coherent c ->
  answer (peek catalogue c) = resolve_field catalogue (made_of c).
Proof.
  intros c C. unfold peek. destruct (memo c) eqn:M; [cbn; symmetry; now apply C|].
  destruct (resolve_field catalogue (made_of c)); reflexivity.
Qed.

Lemma step_coherent : forall c o, plain_set o = true -> coherent c -> coherent (step catalogue c o).
Proof.
  intros c o H C. destruct o; try discriminate; cbn [step].
  - unfold resolve. destruct (resolve_field catalogue (made_of c)) eqn:E; cbn; try exact C.
    intros m M. cbn in *. injection M as <-. now apply write_back_same.
  - unfold peek. destruct (memo c) eqn:Mc; [exact C|].
    destruct (resolve_field catalogue (made_of c)) eqn:E; cbn; try exact C.
    intros m M. cbn in *. injection M as <-. now apply write_back_same.
  - unfold resolve_all. destruct (made_of c) as [e|l] eqn:F.
    + unfold resolve. rewrite F. cbn [resolve_field]. destruct (resolve_element catalogue e) eqn:E; cbn; try exact C.
      intros m M. cbn in *. congruence.
    + destruct l as [|e l]; [exact C|]. destruct (resolve_each catalogue (e :: l)); exact C.
Qed.

Theorem C180_const : forall h f, forallb plain_set h = true ->
  let c := run catalogue h {| made_of := f; memo := None |} in
  answer (peek catalogue c) = answer (resolve catalogue c) /\
  answer (peek catalogue c) = resolve_field catalogue (given f h).
Proof.
  intros h f H c.
  assert (W : forallb writes_field h = true).
  { rewrite forallb_forall in *. intros o I0. specialize (H o I0). destruct o; try discriminate; reflexivity. }
  assert (C : coherent c).
  { unfold c. assert (C0 : coherent {| made_of := f; memo := None |}) by (intros m M; discriminate).
    revert C0. generalize {| made_of := f; memo := None |}. clear c W.
    induction h as [|o h IH]; intros c C; [exact C|]. cbn in H. apply andb_prop in H. destruct H as [Ho H].
    apply IH; [exact H|]. now apply step_coherent. }
  pose proof (C180_latest h {| made_of := f; memo := None |} W) as L. cbn [made_of] in L. fold c in L.
  rewrite L. split; [|]; rewrite (coherent_peek c C); rewrite <- L;
    unfold resolve; destruct (resolve_field catalogue (made_of c)); reflexivity.
Qed.

(** Once resolved, a named material no longer depends on the catalogue. *)
Theorem C180_frozen : forall c c' m e catalogue', made_of c = One e -> resolve catalogue c = Ok (c', m) ->
  answer (resolve catalogue' c') = Ok m /\ answer (peek catalogue' c') = Ok m.
Proof.
  intros c c' m e catalogue' F H. unfold resolve in H. rewrite F in H. cbn [resolve_field] in H.
  destruct (resolve_element catalogue e); try discriminate. cbn in H. injection H as <- <-.
  split; reflexivity.
Qed.

End Fixed.

Definition n87 : material :=
  {| name := "N87"; initial_permeability := 2200; tags := None; complex := true;
     frequency_dependent := false; losses := [("default", [Method Steinmetz; Points; Method Steinmetz])] |}.
Definition k10 : material :=
  {| name := "K10"; initial_permeability := 700; tags := None; complex := false;
     frequency_dependent := true; losses := [("default", [Method LossFactor])] |}.
Definition shelf (n : string) : outcome material :=
  if n =? "N87" then Ok n87 else if n =? "K10" then Ok k10 else Throw "MaterialNotFound".
Definition unread : core := {| made_of := One (Named "N87"); memo := None |}.

Example C180_witness :
  forallb plain_set [Peek; SetMaterial k10; ResolveAll; Resolve] = true /\
  answer (peek shelf (run shelf [Peek; SetMaterial k10; ResolveAll; Resolve] unread)) = Ok k10 /\
  answer (peek shelf (run shelf [Resolve; Peek] unread)) = Ok n87 /\
  answer (resolve shelf {| made_of := One (Named "N88"); memo := None |}) = Throw "MaterialNotFound".
Proof. vm_compute. auto. Qed.

(** Full claim: after the permeability of a material is set, every resolver of the
    core answers the new one. False: setting it fills the memo with the material as
    it was, so the const resolver answers the old permeability, always. *)
Theorem C180_permeability_refuted : forall catalogue c c' v m, resolve_field catalogue (made_of c) = Ok m ->
  set_permeability catalogue v c = Ok c' ->
  answer (resolve catalogue c') = Ok (with_permeability v m) /\ answer (peek catalogue c') = Ok m.
Proof.
  intros catalogue c c' v m E H. unfold set_permeability, resolve in H. rewrite E in H. cbn in H.
  injection H as <-. split; reflexivity.
Qed.
Example C180_permeability_witness : exists c', set_permeability shelf 5 unread = Ok c' /\
  with_permeability 5 n87 <> n87.
Proof. eexists. split; [reflexivity|discriminate]. Qed.

(** Full claim: the const resolver follows the functional description. False: a
    field assigned there after the core was read once is not seen. *)
Theorem C180_assigned_refuted : forall catalogue c c' m f, resolve catalogue c = Ok (c', m) ->
  answer (peek catalogue (assign f c')) = Ok m /\
  answer (resolve catalogue (assign f c')) = resolve_field catalogue f.
Proof.
  intros catalogue c c' m f H. unfold resolve in H.
  destruct (resolve_field catalogue (made_of c)); try discriminate. cbn in H. injection H as <- <-.
  split; [reflexivity|]. unfold resolve. cbn [made_of assign].
  destruct (resolve_field catalogue f); reflexivity.
Qed.

(** Setting the permeability of a material changes nothing else of it. *)
Theorem C180_permeability_only : forall catalogue c c' v m, resolve_field catalogue (made_of c) = Ok m ->
  set_permeability catalogue v c = Ok c' ->
  exists m', answer (resolve catalogue c') = Ok m' /\ initial_permeability m' = v /\
    name m' = name m /\ tags m' = tags m /\ complex m' = complex m /\
    frequency_dependent m' = frequency_dependent m /\ losses m' = losses m.
Proof.
  intros catalogue c c' v m R E. exists (with_permeability v m). split; [apply (C180_permeability_refuted catalogue c c' v m R E)|]. repeat split.
Qed.
(** The placeholder material never asks the catalogue. *)
Theorem C180_dummy : forall catalogue c n, made_of c = One (Named n) -> n = "dummy"%string \/ n = "Dummy"%string ->
  answer (resolve catalogue c) = Ok dummy.
Proof. intros catalogue c n E [-> | ->]; unfold resolve; rewrite E; reflexivity. Qed.
(** Full claim: reading a core through a const reference leaves its description as
    it was (as Core.h says). False: the name is replaced by the record. *)
Theorem C180_const_writes_refuted : forall catalogue n m c', catalogue n = Ok m ->
  n <> "dummy" -> n <> "Dummy" ->
  peek catalogue {| made_of := One (Named n); memo := None |} = Ok (c', m) ->
  made_of c' = One (Inline m).
Proof.
  intros catalogue n m c' C N1 N2 H. unfold peek in H. cbn in H.
  apply eqb_neq in N1. apply eqb_neq in N2. rewrite N1, N2 in H. cbn in H. rewrite C in H. cbn in H.
  now injection H as <-.
Qed.

(** ** C181: assemblies of several materials *)

Section Several.
Variable catalogue : string -> outcome material.

(** Reading never loses a piece, and leaves the list as it was. *)
Theorem C181_kept : forall h c l, made_of c = Many l -> forallb reads h = true ->
  made_of (run catalogue h c) = Many l.
Proof.
  induction h as [|o h IH]; intros c l F H; [exact F|]. cbn in H. apply andb_prop in H. destruct H as [Ho H].
  unfold run. cbn [fold_left]. change (fold_left (step catalogue) h) with (run catalogue h).
  apply IH; [|exact H]. destruct o; try discriminate; cbn [step].
  - unfold resolve. destruct (resolve_field catalogue (made_of c)); cbn; rewrite ?F; reflexivity.
  - unfold peek. destruct (memo c); [exact F|].
    destruct (resolve_field catalogue (made_of c)); cbn; rewrite ?F; reflexivity.
  - unfold resolve_all. rewrite F. destruct l as [|e l]; [exact F|].
    destruct (resolve_each catalogue (e :: l)); exact F.
Qed.

(** All the pieces are resolved in order, the primary first; a core of one
    material has one piece; an empty list is refused by every resolver. *)
Theorem C181_pieces : forall c c' ms, resolve_all catalogue c = Ok (c', ms) ->
  answer (resolve catalogue c) = Ok (hd dummy ms) /\
  match made_of c with
  | One e => Forall2 (fun e m => resolve_element catalogue e = Ok m) [e] ms
  | Many l => Forall2 (fun e m => resolve_element catalogue e = Ok m) l ms /\ ms <> []
  end.
Proof.
  intros c c' ms H. unfold resolve_all in H. destruct (made_of c) as [e|l] eqn:F.
  - unfold resolve in *. rewrite F in *. cbn [resolve_field] in *.
    destruct (resolve_element catalogue e) eqn:E; try discriminate. cbn in H. injection H as <- <-.
    split; [reflexivity|]. repeat constructor. exact E.
  - destruct l as [|e l]; [discriminate|].
    assert (G : forall l ms, resolve_each catalogue l = Ok ms -> Forall2 (fun e m => resolve_element catalogue e = Ok m) l ms).
    { clear. induction l as [|e l IH]; intros ms H; cbn in H; [injection H as <-; constructor|].
      destruct (resolve_element catalogue e) eqn:E; try discriminate. cbn in H.
      destruct (resolve_each catalogue l) eqn:R; try discriminate. cbn in H. injection H as <-.
      constructor; [exact E|]. now apply IH. }
    destruct (resolve_each catalogue (e :: l)) eqn:R; try discriminate. cbn in H. injection H as <- <-.
    specialize (G _ _ R). inversion G; subst. split; [|split; [exact G|discriminate]].
    unfold resolve. rewrite F. cbn [resolve_field]. rewrite H1. reflexivity.
Qed.

Theorem C181_empty : forall c, made_of c = Many [] ->
  answer (resolve catalogue c) = Throw "InvalidInput" /\ answer (resolve_all catalogue c) = Throw "InvalidInput".
Proof. intros c F. unfold resolve, resolve_all. rewrite F. split; reflexivity. Qed.

End Several.

Definition assembly : core := {| made_of := Many [Named "N87"; Inline k10]; memo := None |}.
Example C181_witness : answer (resolve_all shelf assembly) = Ok [n87; k10] /\
  made_of (run shelf [Resolve; Peek; ResolveAll] assembly) = Many [Named "N87"; Inline k10].
Proof. vm_compute. auto. Qed.

(** Full claim: no query of the core, and no change of the permeability of its
    primary, loses the closing pieces. False: asking what the material is for, or
    setting the permeability, leaves the primary alone. *)
Theorem C181_collapsed_refuted : forall catalogue e l m, resolve_element catalogue e = Ok m ->
  let c := {| made_of := Many (e :: l); memo := None |} in
  (forall c' a, resolve_application catalogue c = Ok (c', a) -> answer (resolve_all catalogue c') = Ok [tagged m]) /\
  (forall c' v, set_permeability catalogue v c = Ok c' ->
     answer (resolve_all catalogue c') = Ok [with_permeability v m]) /\
  (exists c' a, resolve_application catalogue c = Ok (c', a)).
Proof.
  intros catalogue e l m E c. unfold c. repeat split.
  - intros c' a H. unfold resolve_application, resolve in H. cbn [made_of resolve_field] in H.
    rewrite E in H. cbn in H. injection H as <- _. reflexivity.
  - intros c' v H. unfold set_permeability, resolve in H. cbn [made_of resolve_field] in H.
    rewrite E in H. cbn in H. injection H as <-. reflexivity.
  - unfold resolve_application, resolve. cbn [made_of resolve_field]. rewrite E. cbn. eauto.
Qed.

(** ** C182: what a material is for *)

(** A material publishes losses by a method. *)
Definition publishes (m : material) (x : method) : Prop :=
  exists v, In v (losses m) /\ In (Method x) (snd v).

Lemma method_eqb_iff : forall a b, method_eqb a b = true <-> a = b.
Proof. intros [] []; cbn; split; intros; congruence. Qed.
Lemma application_eqb_iff : forall a b, application_eqb a b = true <-> a = b.
Proof. intros [] []; cbn; split; intros; congruence. Qed.

Lemma add_method_in : forall found e x, In x (add_method found e) <-> In x found \/ e = Method x.
Proof.
  intros found [m|] x; cbn.
  - destruct (existsb (method_eqb m) found) eqn:E.
    + split; [auto|]. intros [H | H]; [exact H|]. injection H as ->.
      apply existsb_exists in E. destruct E as (y & I1 & Ey). apply method_eqb_iff in Ey. now subst.
    + rewrite in_app_iff. cbn. split; intros [H | H]; auto; [destruct H as [-> | []]; auto|injection H as ->; auto].
  - split; [auto|]. intros [H | H]; [exact H|discriminate].
Qed.
Lemma add_methods_in : forall es found x, In x (fold_left add_method es found) <-> In x found \/ In (Method x) es.
Proof.
  induction es as [|e es IH]; intros found x; cbn; [tauto|]. rewrite IH, add_method_in. tauto.
Qed.

Lemma add_method_nodup : forall found e, NoDup found -> NoDup (add_method found e).
Proof.
  intros found [m|] N; cbn; [|exact N]. destruct (existsb (method_eqb m) found) eqn:E; [exact N|].
  rewrite <- (rev_involutive (found ++ [m])%list).
  apply NoDup_rev. rewrite rev_app_distr. cbn. constructor; [|now apply NoDup_rev].
  rewrite <- in_rev. intros I0. assert (existsb (method_eqb m) found = true); [|congruence].
  apply existsb_exists. exists m. split; [exact I0|]. now apply method_eqb_iff.
Qed.

(** The methods available are those published, each once. *)
Theorem C182_methods : forall m, NoDup (available m) /\ forall x, In x (available m) <-> publishes m x.
Proof.
  intros m. unfold available, publishes. split.
  - assert (G : forall vs found, NoDup found ->
      NoDup (fold_left (fun found (v : string * list entry) => fold_left add_method (snd v) found) vs found)).
    { induction vs as [|v vs IH]; intros found N; cbn; [exact N|]. apply IH.
      revert found N. generalize (snd v). induction l as [|e l IHl]; intros found N; cbn; [exact N|].
      apply IHl. now apply add_method_nodup. }
    apply G. constructor.
  - assert (G : forall vs found x,
      In x (fold_left (fun found (v : string * list entry) => fold_left add_method (snd v) found) vs found) <->
      In x found \/ exists v, In v vs /\ In (Method x) (snd v)).
    { induction vs as [|v vs IH]; intros found x; cbn.
      - split; [auto|]. intros [H | (v & [] & _)]. exact H.
      - rewrite IH, add_methods_in. split.
        + intros [[H | H] | (w & I0 & H)]; [auto| |]; right; [exists v|exists w]; auto.
        + intros [H | (w & [-> | I0] & H)]; [auto|auto|]. right. exists w. auto. }
    intros x. rewrite G. cbn. split; [intros [[] | H]; exact H|auto].
Qed.

(** A tag is believed: the first one is the application. Without tags the losses
    decide. *)
Theorem C182_guess : forall m,
  (forall a rest, tags m = Some (a :: rest) -> guess m = a) /\
  (tags m = None \/ tags m = Some [] ->
     (guess m = Power <-> ~ publishes m LossFactor) /\
     (guess m = InterferenceSuppression <-> publishes m LossFactor /\ complex m = true) /\
     (guess m = SignalProcessing <-> publishes m LossFactor /\ complex m = false)).
Proof.
  intros m. split; [intros a rest T; unfold guess; now rewrite T|]. intros T.
  assert (G : guess m = if existsb (method_eqb LossFactor) (available m)
                        then if complex m then InterferenceSuppression else SignalProcessing else Power).
  { unfold guess. destruct T as [-> | ->]; reflexivity. }
  assert (E : existsb (method_eqb LossFactor) (available m) = true <-> publishes m LossFactor).
  { rewrite existsb_exists, <- (proj2 (C182_methods m)). split.
    - intros (x & I0 & Ex). apply method_eqb_iff in Ex. now subst.
    - intros I0. exists LossFactor. split; [exact I0|reflexivity]. }
  rewrite G. destruct (existsb (method_eqb LossFactor) (available m)); destruct (complex m).
  - assert (P : publishes m LossFactor) by (now apply E).
    repeat split; intros; try discriminate; try tauto. destruct H; discriminate.
  - assert (P : publishes m LossFactor) by (now apply E).
    repeat split; intros; try discriminate; try tauto. destruct H; discriminate.
  - assert (P : ~ publishes m LossFactor) by (intros X; apply E in X; discriminate).
    repeat split; intros; try discriminate; try tauto.
  - assert (P : ~ publishes m LossFactor) by (intros X; apply E in X; discriminate).
    repeat split; intros; try discriminate; try tauto.
Qed.

(** When a material is accepted, in terms of its data. *)
Theorem C182_check : forall m a,
  check m a = true <->
  match a with
  | InterferenceSuppression =>
      match tags m with
      | Some l => (complex m = true \/ frequency_dependent m = true) /\
                  (In InterferenceSuppression l \/ In SignalProcessing l)
      | None => complex m = true
      end
  | SignalProcessing => (exists l, tags m = Some l /\ In SignalProcessing l) \/ publishes m LossFactor
  | Power => (exists l, tags m = Some l /\ In Power l) \/ exists x, publishes m x /\ x <> LossFactor
  end.
Proof.
  intros m a.
  assert (C : forall b l, existsb (application_eqb b) l = true <-> In b l).
  { intros b l. rewrite existsb_exists. split.
    - intros (x & I0 & E). apply application_eqb_iff in E. now subst.
    - intros I0. exists b. split; [exact I0|]. now apply application_eqb_iff. }
  assert (T : forall b, (match tags m with Some l => existsb (application_eqb b) l | None => false end) = true <->
                        exists l, tags m = Some l /\ In b l).
  { intros b. destruct (tags m) as [l|].
    - rewrite C. split; [eauto|]. intros (l' & E & I0). congruence.
    - split; [discriminate|]. intros (l' & E & _). discriminate. }
  assert (Ms : forall (p : method -> bool), existsb p (available m) = true <-> exists x, publishes m x /\ p x = true).
  { intros p. rewrite existsb_exists. split; intros (x & A & B); exists x; (split; [|exact B]); now apply (proj2 (C182_methods m)). }
  unfold check. destruct a.
  - specialize (T Power). destruct (match tags m with Some l => existsb (application_eqb Power) l | None => false end).
    + destruct (tags m); (split; [intros _; left; now apply T|reflexivity]).
    + rewrite andb_false_r. rewrite Ms. assert (N : ~ exists l, tags m = Some l /\ In Power l) by (intros X; apply T in X; discriminate).
      assert (K : (exists x, publishes m x /\ (if method_eqb x LossFactor then application_eqb Power SignalProcessing
                    else application_eqb Power Power) = true) <-> exists x, publishes m x /\ x <> LossFactor).
      { split; intros (x & P & Q); exists x; (split; [exact P|]).
        - intros ->. discriminate.
        - destruct (method_eqb x LossFactor) eqn:E; [apply method_eqb_iff in E; contradiction|reflexivity]. }
      tauto.
  - specialize (T SignalProcessing). destruct (match tags m with Some l => existsb (application_eqb SignalProcessing) l | None => false end).
    + destruct (tags m); (split; [intros _; left; now apply T|reflexivity]).
    + rewrite andb_false_r. rewrite Ms. assert (N : ~ exists l, tags m = Some l /\ In SignalProcessing l) by (intros X; apply T in X; discriminate).
      assert (K : (exists x, publishes m x /\ (if method_eqb x LossFactor then application_eqb SignalProcessing SignalProcessing
                    else application_eqb SignalProcessing Power) = true) <-> publishes m LossFactor).
      { split.
        - intros (x & P & Q). destruct (method_eqb x LossFactor) eqn:E; [apply method_eqb_iff in E; now subst|discriminate].
        - intros P. exists LossFactor. split; [exact P|reflexivity]. }
      tauto.
  - destruct (tags m) as [l|].
    + destruct (complex m), (frequency_dependent m); cbn [negb andb];
        rewrite ?orb_true_iff, ?C; intuition congruence.
    + cbn [application_eqb]. rewrite andb_true_r. destruct (complex m); [tauto|].
      rewrite Ms. split; [|discriminate]. intros (x & _ & E). destruct (method_eqb x LossFactor); discriminate.
Qed.

(** Asking twice gives the same application, and the material is then tagged with
    it. *)
Theorem C182_resolved : forall catalogue c c' a, resolve_application catalogue c = Ok (c', a) ->
  answer (resolve_application catalogue c') = Ok a /\
  exists m, answer (resolve catalogue c) = Ok m /\ a = guess m.
Proof.
  intros catalogue c c' a H. unfold resolve_application in H.
  destruct (resolve catalogue c) as [[c1 m]| | |] eqn:R; try discriminate. cbn in H. injection H as <- <-.
  assert (Tg : match tags (tagged m) with Some (a :: _) => a | _ => Power end = guess m).
  { unfold tagged. destruct (tags m) as [[|a l]|] eqn:T; cbn; try reflexivity. rewrite T. unfold guess. now rewrite T. }
  assert (Id : tagged (tagged m) = tagged m).
  { destruct (tags m) as [[|a l]|] eqn:T; unfold tagged; rewrite ?T; cbn; rewrite ?T; reflexivity. }
  split.
  - unfold resolve_application, resolve. cbn. rewrite Id. cbn. reflexivity.
  - exists m. split; [reflexivity|exact Tg].
Qed.

(** An untagged material that publishes losses is accepted for what it is guessed
    to be for. *)
Theorem C182_guess_accepted_partial : forall m x, tags m = None -> publishes m x -> check m (guess m) = true.
Proof.
  intros m x T P. destruct (C182_guess m) as (_ & G). specialize (G (or_introl T)). destruct G as (G1 & G2 & G3).
  rewrite C182_check. destruct (guess m).
  - right. exists x. split; [exact P|]. intros ->. now apply (proj1 G1).
  - right. now apply G3.
  - rewrite T. now apply G2.
Qed.

Example C182_witness : guess n87 = Power /\ guess k10 = SignalProcessing /\ check n87 Power = true /\
  check n87 InterferenceSuppression = true /\ check k10 InterferenceSuppression = false /\
  check (tagged k10) InterferenceSuppression = true /\ check (tagged n87) InterferenceSuppression = false.
Proof. vm_compute. auto 10. Qed.

(** Full claim: a material is accepted for what it is said or guessed to be for.
    False of a material that is tagged as a suppressor without any data over
    frequency, of one that publishes no losses, and of one with an empty list of
    tags. *)
Theorem C182_guess_refuted :
  exists tagged_only silent no_tags,
    tags tagged_only = Some [InterferenceSuppression] /\ check tagged_only (guess tagged_only) = false /\
    tags silent = None /\ check silent (guess silent) = false /\
    tags no_tags = Some [] /\ publishes no_tags LossFactor /\ check no_tags (guess no_tags) = false.
Proof.
  exists {| name := "a"; initial_permeability := 1; tags := Some [InterferenceSuppression]; complex := false;
            frequency_dependent := false; losses := losses n87 |}.
  exists dummy.
  exists {| name := "b"; initial_permeability := 1; tags := Some []; complex := true;
            frequency_dependent := true; losses := losses k10 |}.
  repeat split. exists ("default", [Method LossFactor]). cbn. auto.
Qed.

(** Full claim: asking what a material is for does not change what it is accepted
    for. False: the tag that is written back takes a material with complex
    permeability and Steinmetz losses out of suppression. *)
Theorem C182_tagging_refuted : exists m, check m InterferenceSuppression = true /\
  check (tagged m) InterferenceSuppression = false.
Proof. exists n87. vm_compute. auto. Qed.

Print Assumptions C180_latest.
Print Assumptions C180_const.
Print Assumptions C180_frozen.
Print Assumptions C180_permeability_refuted.
Print Assumptions C180_assigned_refuted.
Print Assumptions C180_const_writes_refuted.
Print Assumptions C181_kept.
Print Assumptions C181_pieces.
Print Assumptions C181_empty.
Print Assumptions C181_collapsed_refuted.
Print Assumptions C182_methods.
Print Assumptions C182_guess.
Print Assumptions C182_check.
Print Assumptions C182_resolved.
Print Assumptions C182_guess_accepted_partial.
Print Assumptions C182_guess_refuted.
Print Assumptions C182_tagging_refuted.
Print Assumptions C180_permeability_only.
Print Assumptions C180_dummy.
