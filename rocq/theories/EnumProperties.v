(** C37: enumerations and lists of filter operations survive a round trip through JSON. *)
From Coq Require Import List String Ascii Bool QArith Arith Lia.
Import ListNotations.
From Verif Require Import Base TextModel EnumModel.
Open Scope string_scope.

(** ** Vocabulary *)

(** A letter in lower and in upper case; other characters are unchanged. *)
Definition lower_letter (c : ascii) : ascii :=
  let n := nat_of_ascii c in
  if (65 <=? n)%nat && (n <=? 90)%nat then ascii_of_nat (n + 32) else c.
Definition upper_letter (c : ascii) : ascii :=
  let n := nat_of_ascii c in
  if (97 <=? n)%nat && (n <=? 122)%nat then ascii_of_nat (n - 32) else c.
Fixpoint lower_case (s : string) : string :=
  match s with EmptyString => EmptyString | String c t => String (lower_letter c) (lower_case t) end.
Fixpoint upper_case (s : string) : string :=
  match s with EmptyString => EmptyString | String c t => String (upper_letter c) (upper_case t) end.

(** What is left of a text when letter case and underscores are ignored. *)
Fixpoint squash (s : string) : string :=
  match s with
  | EmptyString => EmptyString
  | String c t => if Ascii.eqb c "_" then squash t else String (lower_letter c) (squash t)
  end.

(** [write] and [read] are text forms of the type E: what is written is read back, what is read is a
    spelling of the name of the value up to case and underscores or one of the [aliases], names of
    different values differ even up to case and underscores, an alias is not the name of another value, and
    everything else is an exception. *)
Definition text_form {E : Type} (write : E -> string) (read : json -> outcome E) (aliases : list (string * E)) : Prop :=
  (forall x, read (JStr (write x)) = Ok x) /\
  (forall x y, write x = write y -> x = y) /\
  (forall x y, squash (write x) = squash (write y) -> x = y) /\
  (forall j x, read j = Ok x ->
     exists t, j = JStr t /\ (squash t = squash (write x) \/ In (t, x) aliases)) /\
  (forall t x, In (t, x) aliases ->
     read (JStr t) = Ok x /\ forall y, squash t = squash (write y) -> y = x) /\
  (forall j, (exists x, read j = Ok x) \/ (exists m, read j = Throw m)).

(** The name of every value is also read in lower and in upper case. *)
Definition any_case {E : Type} (write : E -> string) (read : json -> outcome E) : Prop :=
  forall x, read (JStr (lower_case (write x))) = Ok x /\ read (JStr (upper_case (write x))) = Ok x.

(** ** Proofs *)

Lemma read_enum_Ok {E : Type} (rows : list (list string * E)) n j x :
  read_enum rows n j = Ok x -> exists t texts, j = JStr t /\ In (texts, x) rows /\ In t texts.
Proof.
  induction rows as [|[texts y] rows IH]; cbn; [discriminate|].
  destruct (existsb _ texts) eqn:B.
  - intros [= <-]. apply existsb_exists in B as (t & I & K). destruct j; try discriminate.
    apply String.eqb_eq in K as ->. exists t, texts. auto.
  - intros R. destruct (IH R) as (t & ts & ? & ? & ?). exists t, ts. auto.
Qed.

Lemma read_enum_total {E : Type} (rows : list (list string * E)) n j :
  (exists x, read_enum rows n j = Ok x) \/ (exists m, read_enum rows n j = Throw m).
Proof.
  induction rows as [|[texts y] rows IH]; cbn; [right; eauto|].
  destruct (existsb _ texts); [left; eauto|exact IH].
Qed.

(** Which value a squashed text names. *)
Fixpoint decode {E : Type} (rows : list (list string * E)) (s : string) : option E :=
  match rows with
  | [] => None
  | (texts, x) :: rest => if existsb (fun t => String.eqb s (squash t)) texts then Some x else decode rest s
  end.

Lemma text_form_of {E : Type} (rows : list (list string * E)) n (write : E -> string) (aliases : list (string * E)) :
  (forall x, read_enum rows n (JStr (write x)) = Ok x) ->
  (forall x, decode rows (squash (write x)) = Some x) ->
  Forall (fun r => Forall (fun t => squash t = squash (write (snd r)) \/ In (t, snd r) aliases) (fst r)) rows ->
  Forall (fun a => read_enum rows n (JStr (fst a)) = Ok (snd a) /\ decode rows (squash (fst a)) = Some (snd a)) aliases ->
  text_form write (read_enum rows n) aliases.
Proof.
  intros RT D F A. repeat apply conj.
  - exact RT.
  - intros x y E'. pose proof (RT x) as Hx. rewrite E', RT in Hx. now injection Hx.
  - intros x y E'. pose proof (D x) as Hx. rewrite E', D in Hx. now injection Hx.
  - intros j x R. destruct (read_enum_Ok _ _ _ _ R) as (t & ts & -> & I & K). exists t. split; [reflexivity|].
    rewrite Forall_forall in F. specialize (F _ I). rewrite Forall_forall in F. exact (F _ K).
  - intros t x I. rewrite Forall_forall in A. destruct (A _ I) as [A1 A2]. cbn in A1, A2. split; [exact A1|].
    intros y E'. pose proof (D y) as Hy. rewrite <- E', A2 in Hy. now injection Hy.
  - apply read_enum_total.
Qed.

Ltac each_value := let x := fresh in intros x; destruct x; vm_compute; reflexivity.
Ltac each_row :=
  repeat (cbn [fst snd]; first [apply Forall_nil | apply Forall_cons]); cbn [fst snd];
  match goal with
  | |- _ \/ _ => first [left; vm_compute; reflexivity | right; cbn; tauto]
  | |- _ /\ _ => split; vm_compute; reflexivity
  end.
Ltac text_form_tac := apply text_form_of; [each_value|each_value|each_row ..].
Ltac any_case_tac := let x := fresh in intros x; destruct x; vm_compute; split; reflexivity.

(** ** C37, one theorem for each enumeration *)

Theorem C37_DimensionalValues :
  text_form write_DimensionalValues read_DimensionalValues
    [].
Proof. text_form_tac. Qed.

Theorem C37_GappingType :
  text_form write_GappingType read_GappingType
    [].
Proof. text_form_tac. Qed.

Theorem C37_CoreCrossReferencerFilters :
  text_form write_CoreCrossReferencerFilters read_CoreCrossReferencerFilters
    [].
Proof. text_form_tac. Qed.

Theorem C37_CoreMaterialCrossReferencerFilters :
  text_form write_CoreMaterialCrossReferencerFilters read_CoreMaterialCrossReferencerFilters
    [].
Proof. text_form_tac. Qed.

Theorem C37_OrderedIsolationSide :
  text_form write_OrderedIsolationSide read_OrderedIsolationSide
    [].
Proof. text_form_tac. Qed.

Theorem C37_PainterModes :
  text_form write_PainterModes read_PainterModes
    [].
Proof. text_form_tac. Qed.

Theorem C37_MagneticFilters :
  text_form write_MagneticFilters read_MagneticFilters
    [].
Proof. text_form_tac. Qed.

Theorem C37_MagneticFieldStrengthModels :
  text_form write_MagneticFieldStrengthModels read_MagneticFieldStrengthModels
    [("Albach2D", MagneticFieldStrengthModels_ALBACH);
     ("albach2d", MagneticFieldStrengthModels_ALBACH); ("ALBACH_2D", MagneticFieldStrengthModels_ALBACH)].
Proof. text_form_tac. Qed.

Theorem C37_MagneticFieldStrengthFringingEffectModels :
  text_form write_MagneticFieldStrengthFringingEffectModels read_MagneticFieldStrengthFringingEffectModels
    [].
Proof. text_form_tac. Qed.

Theorem C37_ReluctanceModels :
  text_form write_ReluctanceModels read_ReluctanceModels
    [].
Proof. text_form_tac. Qed.

Theorem C37_CoreLossesModels :
  text_form write_CoreLossesModels read_CoreLossesModels
    [].
Proof. text_form_tac. Qed.

Theorem C37_CoreThermalResistanceModels :
  text_form write_CoreThermalResistanceModels read_CoreThermalResistanceModels
    [].
Proof. text_form_tac. Qed.

Theorem C37_CoreTemperatureModels :
  text_form write_CoreTemperatureModels read_CoreTemperatureModels
    [].
Proof. text_form_tac. Qed.

Theorem C37_WindingSkinEffectLossesModels :
  text_form write_WindingSkinEffectLossesModels read_WindingSkinEffectLossesModels
    [].
Proof. text_form_tac. Qed.

Theorem C37_WindingProximityEffectLossesModels :
  text_form write_WindingProximityEffectLossesModels read_WindingProximityEffectLossesModels
    [("Nan", WindingProximityEffectLossesModels_XI_NAN)].
Proof. text_form_tac. Qed.

Theorem C37_StrayCapacitanceModels :
  text_form write_StrayCapacitanceModels read_StrayCapacitanceModels
    [].
Proof. text_form_tac. Qed.

Theorem C37_CoreAdviserFilters :
  text_form write_CoreAdviserFilters read_CoreAdviserFilters
    [].
Proof. text_form_tac. Qed.

Theorem C37_CoreAdviserModes :
  text_form write_CoreAdviserModes read_CoreAdviserModes
    [].
Proof. text_form_tac. Qed.

Theorem C37_CircuitSimulatorExporterModels :
  text_form write_CircuitSimulatorExporterModels read_CircuitSimulatorExporterModels
    [].
Proof. text_form_tac. Qed.

(** The names of these enumerations are read in any of the three cases … *)
Theorem C37_any_case :
  any_case write_GappingType read_GappingType /\
  any_case write_CoreCrossReferencerFilters read_CoreCrossReferencerFilters /\
  any_case write_CoreMaterialCrossReferencerFilters read_CoreMaterialCrossReferencerFilters /\
  any_case write_OrderedIsolationSide read_OrderedIsolationSide /\
  any_case write_PainterModes read_PainterModes /\
  any_case write_MagneticFieldStrengthModels read_MagneticFieldStrengthModels /\
  any_case write_MagneticFieldStrengthFringingEffectModels read_MagneticFieldStrengthFringingEffectModels /\
  any_case write_ReluctanceModels read_ReluctanceModels /\
  any_case write_CoreLossesModels read_CoreLossesModels /\
  any_case write_CoreThermalResistanceModels read_CoreThermalResistanceModels /\
  any_case write_CoreTemperatureModels read_CoreTemperatureModels /\
  any_case write_StrayCapacitanceModels read_StrayCapacitanceModels.
Proof. repeat apply conj; any_case_tac. Qed.

(** … those of the others are not: a name in another case is refused. *)
Theorem C37_any_case_refuted :
  ~ any_case write_DimensionalValues read_DimensionalValues /\
  ~ any_case write_MagneticFilters read_MagneticFilters /\
  ~ any_case write_WindingSkinEffectLossesModels read_WindingSkinEffectLossesModels /\
  ~ any_case write_WindingProximityEffectLossesModels read_WindingProximityEffectLossesModels /\
  ~ any_case write_CoreAdviserFilters read_CoreAdviserFilters /\
  ~ any_case write_CoreAdviserModes read_CoreAdviserModes /\
  ~ any_case write_CircuitSimulatorExporterModels read_CircuitSimulatorExporterModels.
Proof.
  repeat apply conj; intros A.
  - destruct (A DimensionalValues_MAXIMUM) as [L U]; vm_compute in L, U; discriminate.
  - destruct (A MagneticFilters_AREA_PRODUCT) as [L U]; vm_compute in L, U; discriminate.
  - destruct (A WindingSkinEffectLossesModels_XI_NAN) as [L U]; vm_compute in L, U; discriminate.
  - destruct (A WindingProximityEffectLossesModels_ROSSMANITH) as [L U]; vm_compute in L, U; discriminate.
  - destruct (A CoreAdviserFilters_TURN_COUNT) as [L U]; vm_compute in L, U; discriminate.
  - destruct (A CoreAdviserModes_AVAILABLE_CORES) as [L U]; vm_compute in L, U; discriminate.
  - destruct (A CircuitSimulatorExporterModels_SIMBA) as [L U]; vm_compute in L, U; discriminate.
Qed.

(** ** C37 for the filter operations an adviser is given *)

Theorem C37_operation : forall x,
  read_operation (write_operation x) = Ok x.
Proof.
  intros [f i l r w]. unfold read_operation, write_operation. cbn [filter_of invert_of log_of required_of weight_of].
  destruct C37_MagneticFilters as [RT _]. cbn [json_at List.find fst snd String.eqb Ascii.eqb Bool.eqb bind].
  rewrite RT. reflexivity.
Qed.

(** Reading a list of operations into an empty list gives the list written; reading it into a list that
    already holds operations adds them behind those. *)
Theorem C37_operations : forall held l,
  read_operations held (write_operations l) = ((held ++ l)%list, Ok tt) /\
  read_operations [] (write_operations l) = (l, Ok tt).
Proof.
  assert (G : forall l held, read_operations held (write_operations l) = ((held ++ l)%list, Ok tt)).
  { unfold read_operations, write_operations. cbn [json_elements].
    induction l as [|x l IH]; intros held; cbn [map read_operations_from].
    - now rewrite app_nil_r.
    - rewrite C37_operation, IH, <- app_assoc. reflexivity. }
  intros held l. split; [apply G|]. rewrite G. reflexivity.
Qed.

(** Whatever the text, the destination keeps what it held, and what is added are operations that can be
    written back to the elements they were read from up to spelling: as many as the elements before the
    first one that is refused. *)
Theorem C37_operations_any_text : forall held j v r,
  read_operations held j = (v, r) ->
  exists read refused,
    json_elements j = (read ++ refused)%list /\
    exists l, v = (held ++ l)%list /\ Forall2 (fun e x => read_operation e = Ok x) read l /\
    match refused with
    | [] => r = Ok tt
    | e :: _ => exists m, read_operation e = Throw m /\ r = Throw m
    end.
Proof.
  intros held j. unfold read_operations. generalize (json_elements j) as es. clear j. intros es. revert held.
  assert (T : forall j, (exists x, read_operation j = Ok x) \/ (exists m, read_operation j = Throw m)).
  { assert (B : forall A C (m : outcome A) (f : A -> outcome C),
      ((exists x, m = Ok x) \/ (exists e, m = Throw e)) ->
      (forall x, (exists y, f x = Ok y) \/ (exists e, f x = Throw e)) ->
      (exists y, bind m f = Ok y) \/ (exists e, bind m f = Throw e)).
    { intros A C m f [[x ->]|[e ->]] F; cbn; [apply F|right; eauto]. }
    assert (AT : forall j k, (exists x, json_at j k = Ok x) \/ (exists e, json_at j k = Throw e)).
    { intros j k. destruct j; cbn; eauto. destruct (List.find _ _); eauto. }
    assert (GB : forall j, (exists x, get_bool j = Ok x) \/ (exists e, get_bool j = Throw e)).
    { intros j. destruct j; cbn; eauto. }
    assert (GD : forall j, (exists x, get_double j = Ok x) \/ (exists e, get_double j = Throw e)).
    { intros j. destruct j; cbn; eauto. }
    intros j. unfold read_operation.
    repeat (apply B; [first [apply AT | apply GB | apply GD | apply C37_MagneticFilters]|intros ?]). left; eauto. }
  induction es as [|e es IH]; intros held v r; cbn [read_operations_from].
  - intros [= <- <-]. exists [], []. split; [reflexivity|]. exists []. rewrite app_nil_r. auto.
  - destruct (T e) as [[x R]|[m R]]; rewrite R.
    + intros H. destruct (IH _ _ _ H) as (rd & rf & E & l & V & F & M). exists (e :: rd), rf. rewrite E.
      split; [reflexivity|]. exists (x :: l). rewrite V, <- app_assoc. repeat split; auto.
    + intros [= <- <-]. exists [], (e :: es). split; [reflexivity|]. exists []. rewrite app_nil_r.
      repeat split; eauto.
Qed.

(** ** Concrete cases *)

Example C37_witness_write : write_MagneticFilters MagneticFilters_MAGNETOMOTIVE_FORCE = "MagnetomotiveForce".
Proof. reflexivity. Qed.
Example C37_witness_read : read_CoreLossesModels (JStr "cigse") = Ok CoreLossesModels_CIGSE.
Proof. reflexivity. Qed.
Example C37_witness_alias : read_MagneticFieldStrengthModels (JStr "albach2d") = Ok MagneticFieldStrengthModels_ALBACH.
Proof. reflexivity. Qed.
Example C37_witness_refused : exists m, read_ReluctanceModels (JStr "Zang") = Throw m.
Proof. eexists. reflexivity. Qed.
Example C37_witness_not_text : exists m, read_ReluctanceModels (JNum 3) = Throw m.
Proof. eexists. reflexivity. Qed.
Example C37_witness_operations :
  read_operations [Operation MagneticFilters_COST true false false 1]
    (JArr [write_operation (Operation MagneticFilters_LOSSES true true false (1 # 2)); JNull])
  = ([Operation MagneticFilters_COST true false false 1; Operation MagneticFilters_LOSSES true true false (1 # 2)],
     Throw "type_error").
Proof. reflexivity. Qed.

Print Assumptions C37_MagneticFilters.
Print Assumptions C37_operations_any_text.
