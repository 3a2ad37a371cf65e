(** * The core loss model that is used (C132) *)
From Coq Require Import Reals List Lra Lia ZArith String.
From Verif Require Import Base SizingModel CoreLossModel CoreLossProofs CoreLossChoiceModel.
Import ListNotations.
Local Open Scope R_scope.

(** ** Vocabulary: what the data of a material offer *)

Definition declares (x : material) (k : kind) : Prop :=
  exists v l d, In (v, l) (volumetric x) /\ In (Data d) l /\ method d = k.

Definition has_mass_method (x : material) : Prop :=
  exists w v l, massic x = Some w /\ In (v, l) w /\ In Magnetec l.

Definition offers (x : material) (m : model) : Prop :=
  match m with
  | Steinmetz | Igse | Cigse | Barg | Albach | Mse => declares x KSteinmetz
  | Roshen => declares x KRoshen
  | LossFactor => declares x KLossFactor
  | Proprietary =>
      declares x KMagnetics \/ declares x KMicrometals \/ declares x KPoco \/ declares x KTdg \/ has_mass_method x
  | Nse => False
  end.

(** The material of that name in the database. *)
Definition known (database : list material) (x : material) : Prop :=
  material_name x <> "dummy"%string /\
  exists before after, database = before ++ x :: after /\
    forall y, In y before -> material_name y <> material_name x.

(** ** C132 *)

Lemma declared_in : forall x k, In k (declared x) <-> declares x k.
Proof.
  intros x k. unfold declared, declares. rewrite in_flat_map. split.
  - intros ([v l] & I & J). unfold kinds_of in J. apply in_flat_map in J as (y & Y & K). cbn [snd] in Y.
    destruct y as [|d]; [destruct K|]. destruct K as [<-|[]]. exists v, l, d. auto.
  - intros (v & l & d & I & J & <-). exists (v, l). split; [exact I|]. unfold kinds_of. apply in_flat_map.
    exists (Data d). split; [exact J|left; reflexivity].
Qed.

Lemma has_spec : forall k l, has k l = true <-> In k l.
Proof. intros k l. unfold has. destruct (in_dec kind_eq_dec k l); split; intros; try assumption; try discriminate; tauto. Qed.

Lemma has_declares : forall x k, has k (declared x) = true <-> declares x k.
Proof. intros. rewrite has_spec. apply declared_in. Qed.

Lemma magnetec_spec : forall x, has_magnetec x = true <-> has_mass_method x.
Proof.
  intros x. unfold has_magnetec, has_mass_method. destruct (massic x) as [w|].
  - rewrite existsb_exists. split.
    + intros ([v l] & I & E). apply existsb_exists in E as (y & Y & Z). cbn [snd] in Y.
      destruct y; [discriminate|]. exists w, v, l. auto.
    + intros (w' & v & l & E & I & J). injection E as <-. exists (v, l). split; [exact I|].
      apply existsb_exists. exists Magnetec. split; [exact J|reflexivity].
  - split; [discriminate|]. intros (w & v & l & E & _). discriminate.
Qed.

Lemma in_if : forall (A : Type) (x : A) (b : bool) l, In x (if b then l else []) <-> b = true /\ In x l.
Proof. intros A x b l. destruct b; simpl; split; [intros H; split; [reflexivity|exact H]|tauto|tauto|intros [H _]; discriminate]. Qed.

(** What [get_methods] lists is what the data offer. *)
Theorem C132_methods : forall x m, In m (methods x) <-> offers x m.
Proof.
  intros x m. unfold methods, offers.
  repeat rewrite in_app_iff. repeat rewrite in_if.
  rewrite !Bool.orb_true_iff, !has_declares, magnetec_spec.
  destruct m; simpl; intuition congruence.
Qed.

Lemma find_known : forall database x, known database x -> find_material database (material_name x) = Ok x.
Proof.
  intros database x [_ (before & after & E & N)]. subst database. induction before as [|y r IH]; simpl.
  - rewrite String.eqb_refl. reflexivity.
  - destruct (String.eqb_spec (material_name y) (material_name x)) as [Q|_].
    + exfalso. apply (N y); [left; reflexivity|exact Q].
    + apply IH. intros z Z. apply N. right. exact Z.
Qed.

Lemma chosen_known : forall database models x, known database x ->
  chosen_model database models (material_name x) =
  match find (fun m => if in_dec model_eq_dec m (methods x) then true else false) models with
  | Some m => Ok m
  | None => Throw "ModelNotAvailableException"
  end.
Proof.
  intros database models x K. unfold chosen_model, methods_of_name. pose proof (find_known _ _ K) as F.
  destruct K as [D _]. apply String.eqb_neq in D. rewrite D, F. reflexivity.
Qed.

Lemma find_split : forall (A : Type) (p : A -> bool) l x, find p l = Some x ->
  exists before after, l = before ++ x :: after /\ p x = true /\ forall y, In y before -> p y = false.
Proof.
  intros A p l x. induction l as [|y r IH]; intros H; [discriminate|]. simpl in H. destruct (p y) eqn:P.
  - injection H as <-. exists [], r. split; [reflexivity|]. split; [exact P|]. intros y' [].
  - destruct (IH H) as (b & a & E & Q & N). exists (y :: b), a. split; [rewrite E; reflexivity|].
    split; [exact Q|]. intros z [<-|Z]; [exact P|apply N; exact Z].
Qed.

(** The model used is the first of the list that the material offers. *)
Theorem C132_first_offered : forall database models x m, known database x ->
  chosen_model database models (material_name x) = Ok m <->
  (exists before after, models = before ++ m :: after /\ offers x m /\ forall y, In y before -> ~ offers x y).
Proof.
  intros database models x m K. rewrite (chosen_known _ _ _ K). split.
  - destruct (find _ models) as [q|] eqn:F; [|discriminate]. intros E. injection E as <-.
    destruct (find_split _ _ _ _ F) as (b & a & E & P & N). exists b, a. split; [exact E|].
    destruct (in_dec model_eq_dec q (methods x)) as [I|]; [|discriminate]. split; [apply C132_methods; exact I|].
    intros y Y O. specialize (N y Y). cbv beta in N. apply C132_methods in O.
    destruct (in_dec model_eq_dec y (methods x)); [discriminate|contradiction].
  - intros (b & a & -> & O & N).
    assert (F : find (fun q => if in_dec model_eq_dec q (methods x) then true else false) (b ++ m :: a) = Some m).
    { induction b as [|y r IH]; simpl.
      - destruct (in_dec model_eq_dec m (methods x)) as [|Q]; [reflexivity|]. exfalso. apply Q, C132_methods, O.
      - destruct (in_dec model_eq_dec y (methods x)) as [I|_].
        + exfalso. apply (N y); [left; reflexivity|apply C132_methods; exact I].
        + apply IH. intros z Z. apply N. right. exact Z. }
    rewrite F. reflexivity.
Qed.

(** The preferred model is used when the material offers it. *)
Theorem C132_preferred : forall database x p, known database x -> offers x p ->
  chosen_model database (preference p) (material_name x) = Ok p.
Proof.
  intros database x p K O. apply C132_first_offered; [exact K|]. exists [], [Proprietary; LossFactor; Steinmetz; Roshen].
  split; [reflexivity|]. split; [exact O|]. intros y [].
Qed.

Lemma offers_dec : forall x m, offers x m \/ ~ offers x m.
Proof.
  intros x m. destruct (in_dec model_eq_dec m (methods x)) as [I|I]; [left|right]; rewrite <- C132_methods; exact I.
Qed.

(** Whatever the preference, some model is used for every material with any data,
    and the material offers it; without data the request is refused. *)
Theorem C132_some_model : forall database x p, known database x ->
  (exists m, offers x m) ->
  exists m, chosen_model database (preference p) (material_name x) = Ok m /\ offers x m.
Proof.
  intros database x p K (m0 & O). rewrite (chosen_known _ _ _ K).
  destruct (find _ (preference p)) as [m|] eqn:F.
  - exists m. split; [reflexivity|]. apply find_some in F as [_ F].
    destruct (in_dec model_eq_dec m (methods x)); [|discriminate]. apply C132_methods. assumption.
  - exfalso.
    assert (N : forall m, In m (preference p) -> ~ offers x m).
    { intros m I W. pose proof (find_none _ _ F m I) as G. cbv beta in G. apply C132_methods in W.
      destruct (in_dec model_eq_dec m (methods x)); [discriminate|contradiction]. }
    pose proof (N Proprietary ltac:(simpl; tauto)) as N1. pose proof (N LossFactor ltac:(simpl; tauto)) as N2.
    pose proof (N Steinmetz ltac:(simpl; tauto)) as N3. pose proof (N Roshen ltac:(simpl; tauto)) as N4.
    destruct m0; simpl in *; tauto.
Qed.

Theorem C132_no_data : forall database models x, known database x -> (forall m, ~ offers x m) ->
  chosen_model database models (material_name x) = Throw "ModelNotAvailableException".
Proof.
  intros database models x K N. rewrite (chosen_known _ _ _ K).
  destruct (find _ models) as [m|] eqn:F; [|reflexivity]. exfalso. apply find_some in F as [_ F].
  destruct (in_dec model_eq_dec m (methods x)) as [I|]; [|discriminate]. apply (N m), C132_methods, I.
Qed.

(** A method declared in the variant called default is found by the models. *)
Lemma first_data_in : forall k l, (exists d, In (Data d) l /\ method d = k) ->
  exists d, first_data k l = Some d /\ In (Data d) l /\ method d = k.
Proof.
  intros k l (d & I & M). induction l as [|[|y] r IH]; [destruct I| |].
  - destruct I as [I|I]; [discriminate|]. destruct (IH I) as (d' & E & J & N). exists d'. simpl. auto.
  - simpl. destruct (kind_eq_dec (method y) k) as [E|E].
    + exists y. auto.
    + destruct I as [I|I]; [injection I as ->; contradiction|].
      destruct (IH I) as (d' & E' & J & N). exists d'. auto.
Qed.

Theorem C132_default_data : forall x k l d,
  In ("default"%string, l) (volumetric x) -> In (Data d) l -> method d = k ->
  exists d', method_data_of x k = Ok d' /\ method d' = k /\
    exists l', In ("default"%string, l') (volumetric x) /\ In (Data d') l'.
Proof.
  intros x k l d. unfold method_data_of. induction (volumetric x) as [|[v y] r IH]; intros I J M; [destruct I|].
  simpl. destruct (String.eqb_spec v "default") as [E|E].
  - destruct (first_data k y) as [d'|] eqn:F.
    + exists d'. split; [reflexivity|]. assert (G : In (Data d') y /\ method d' = k).
      { clear -F. induction y as [|[|z] r IH]; simpl in F; [discriminate| |].
        - destruct (IH F). simpl. tauto.
        - destruct (kind_eq_dec (method z) k); [injection F as <-; split; [left; reflexivity|assumption]|].
          destruct (IH F). simpl. tauto. }
      destruct G as [G G']. split; [exact G'|]. exists y. split; [left; rewrite E; reflexivity|exact G].
    + destruct I as [I|I].
      * injection I as _ ->. exfalso. destruct (first_data_in k l) as (d' & E' & _); [exists d; auto|].
        rewrite E' in F. discriminate.
      * destruct (IH I J M) as (d' & E' & M' & l' & I' & J'). exists d'. split; [exact E'|]. split; [exact M'|].
        exists l'. split; [right; exact I'|exact J'].
  - destruct I as [I|I]; [exfalso; apply E; injection I as I _; exact I|].
    destruct (IH I J M) as (d' & E' & M' & l' & I' & J'). exists d'. split; [exact E'|]. split; [exact M'|].
    exists l'. split; [right; exact I'|exact J'].
Qed.

(** NSE can be preferred but is never used. *)
Theorem C132_nse_refuted : forall database models x, known database x ->
  chosen_model database models (material_name x) <> Ok Nse.
Proof.
  intros database models x K E. apply (C132_first_offered _ _ _ _ K) in E as (b & a & _ & O & _). exact O.
Qed.

(** ** Materials of the examples *)

Definition plain (k : kind) : method_data :=
  {| method := k; ranges_ := Some []; a_ := Some 1; b_ := Some 1; c_ := Some 1; d_ := Some 1; factors := None |}.

(** Steinmetz coefficients in another variant than the one called default. *)
Definition variant_material : material :=
  {| material_name := "M"; volumetric := [("25C"%string, [Points; Data (plain KSteinmetz)])]; massic := None |}.

(** Measured volumetric losses and the mass losses of Magnetec. *)
Definition mixed_material : material :=
  {| material_name := "N"; volumetric := [("default"%string, [Points])];
     massic := Some [("default"%string, [Magnetec])] |}.

Definition core_of (x : material) : core :=
  {| split := None; made_of := x; effective_volume := 1; weight := 1; shell := None |}.

Lemma known_alone : forall x, material_name x <> "dummy"%string -> known [x] x.
Proof. intros x N. split; [exact N|]. exists [], []. split; [reflexivity|]. intros y []. Qed.

Lemma high_frequency : forall e, 400 <= frequency e -> switching_frequency e = Ok (frequency e).
Proof. intros e F. unfold switching_frequency. destruct (Rlt_dec (frequency e) 400); [lra|reflexivity]. Qed.

(** A model is offered, and chosen, with data that it does not find. *)
Theorem C132_other_variant_refuted :
  forall points spline roshen ring factor unit permeability biased e t, 400 <= frequency e ->
  offers variant_material Igse /\
  chosen_model [variant_material] (preference Igse) "M" = Ok Igse /\
  calculate_losses points spline roshen ring factor unit permeability biased [variant_material] (preference Igse)
    (core_of variant_material) e t = Throw "MaterialException".
Proof.
  intros points spline roshen ring factor unit permeability biased e t F.
  assert (O : offers variant_material Igse).
  { exists "25C"%string, [Points; Data (plain KSteinmetz)], (plain KSteinmetz). simpl. auto. }
  assert (K : known [variant_material] variant_material) by (apply known_alone; discriminate).
  pose proof (C132_preferred _ _ _ K O) as C. split; [exact O|]. split; [exact C|].
  unfold calculate_losses. cbn [split core_of made_of]. rewrite C. cbn [bind].
  unfold losses_by, volumetric_by. cbn [made_of core_of uses_volumetric volumetric variant_material bind].
  rewrite high_frequency by exact F. reflexivity.
Qed.

(** With points and mass losses the manufacturer's model is chosen and looks for
    a volumetric method there is not. *)
Theorem C132_points_and_mass_refuted :
  forall points spline roshen ring factor unit permeability biased e t, 400 <= frequency e ->
  offers mixed_material Proprietary /\
  calculate_losses points spline roshen ring factor unit permeability biased [mixed_material] (preference Igse)
    (core_of mixed_material) e t = Throw "MaterialException".
Proof.
  intros points spline roshen ring factor unit permeability biased e t F. split.
  - right. right. right. right. exists [("default"%string, [Magnetec])], "default"%string, [Magnetec]. simpl. auto.
  - assert (C : chosen_model [mixed_material] (preference Igse) "N" = Ok Proprietary).
    { unfold chosen_model, methods_of_name. simpl.
      repeat match goal with |- context [if in_dec ?a ?b ?c then _ else _] =>
        destruct (in_dec a b c) as [I|I]; simpl in I; try (exfalso; intuition discriminate) end; try reflexivity.
      all: exfalso; tauto. }
    unfold calculate_losses. cbn [split core_of made_of]. change (material_name mixed_material) with "N"%string.
    rewrite C. cbn [bind]. unfold losses_by, volumetric_by.
    cbn [made_of core_of uses_volumetric volumetric mixed_material bind].
    unfold proprietary_losses. rewrite high_frequency by exact F. reflexivity.
Qed.

(** A core with its own data is served by the methods of the material of that
    name in the database: here one it has no data for. *)
Theorem C132_own_data_refuted :
  forall points spline roshen ring factor unit permeability biased e t, 400 <= frequency e ->
  exists stored own, material_name own = material_name stored /\ known [stored] stored /\
    offers own Igse /\
    (exists d, method_data_of own KSteinmetz = Ok d) /\
    calculate_losses points spline roshen ring factor unit permeability biased [stored] (preference Igse)
      (core_of own) e t = Throw "MaterialException".
Proof.
  intros points spline roshen ring factor unit permeability biased e t F.
  exists {| material_name := "M"; volumetric := [("default"%string, [Data (plain KTdg)])]; massic := None |},
         {| material_name := "M"; volumetric := [("default"%string, [Data (plain KSteinmetz)])]; massic := None |}.
  split; [reflexivity|]. split; [apply known_alone; discriminate|]. split.
  { exists "default"%string, [Data (plain KSteinmetz)], (plain KSteinmetz). simpl. auto. }
  split; [eexists; reflexivity|].
  match goal with |- calculate_losses _ _ _ _ _ _ _ _ [?s] _ (core_of ?o) _ _ = _ => set (st := s); set (ow := o) end.
  assert (C : chosen_model [st] (preference Igse) (material_name ow) = Ok Proprietary).
  { change (material_name ow) with (material_name st). apply C132_first_offered; [apply known_alone; discriminate|].
    exists [Igse], [LossFactor; Steinmetz; Roshen]. split; [reflexivity|]. split.
    - right. right. right. left. exists "default"%string, [Data (plain KTdg)], (plain KTdg). simpl. auto.
    - intros y [<-|[]] (v & l & d & I & J & M). simpl in I. destruct I as [I|[]]. injection I as <- <-.
      destruct J as [J|[]]. injection J as <-. discriminate. }
  unfold calculate_losses. cbn [split core_of made_of]. rewrite C. cbn [bind].
  unfold losses_by, volumetric_by. cbn [made_of core_of uses_volumetric volumetric ow bind].
  unfold proprietary_losses. rewrite high_frequency by exact F. reflexivity.
Qed.

(** A material with the data of a manufacturer and Steinmetz coefficients: its
    preferred model is used, and without it the one of the manufacturer. *)
Example C132_witness :
  let x := {| material_name := "X"; volumetric := [("default"%string, [Data (plain KPoco); Data (plain KSteinmetz)])];
              massic := None |} in
  known [x] x /\ chosen_model [x] (preference Barg) "X" = Ok Barg /\
  chosen_model [x] (preference Roshen) "X" = Ok Proprietary.
Proof.
  intros x. assert (K : known [x] x) by (apply known_alone; discriminate). split; [exact K|]. split.
  - apply (C132_preferred [x] x Barg K). exists "default"%string, [Data (plain KPoco); Data (plain KSteinmetz)], (plain KSteinmetz).
    simpl. auto.
  - apply (C132_first_offered [x] (preference Roshen) x Proprietary K).
    exists [Roshen], [LossFactor; Steinmetz; Roshen]. split; [reflexivity|]. split.
    + right. right. left. exists "default"%string, [Data (plain KPoco); Data (plain KSteinmetz)], (plain KPoco). simpl. auto.
    + intros y [<-|[]] (v & l & d & I & J & M). simpl in I. destruct I as [I|[]]. injection I as <- <-.
      simpl in J. destruct J as [J|[J|[]]]; injection J as <-; discriminate.
Qed.

Print Assumptions C132_first_offered.
Print Assumptions C132_some_model.
Print Assumptions C132_default_data.
Print Assumptions C132_other_variant_refuted.
Print Assumptions C132_points_and_mass_refuted.
Print Assumptions C132_own_data_refuted.
