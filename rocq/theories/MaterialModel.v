(** * The material of a core

    Models src/constructive_models/Core.cpp: how the material field of a core is
    resolved, memoised and changed, and what a material is taken to be for.

    Simplified throughout: of a material only its name, its initial permeability,
    its application tags, its published losses and whether it has complex or
    frequency dependent permeability are kept; [find_core_material_by_name] is a
    function that answers or throws. *)
From Coq Require Import ZArith QArith List String Bool Lia.
From Verif Require Import Base.
Import ListNotations.
Local Open Scope outcome_scope.
Local Open Scope string_scope.

(** [MAS::MagneticApplication]. *)
Inductive application := Power | SignalProcessing | InterferenceSuppression.
Definition application_eqb (a b : application) : bool :=
  match a, b with
  | Power, Power | SignalProcessing, SignalProcessing
  | InterferenceSuppression, InterferenceSuppression => true
  | _, _ => false
  end.

(** [VolumetricCoreLossesMethodType]. *)
Inductive method := Steinmetz | Roshen | Micrometals | Magnetics | Poco | Tdg | LossFactor.
Definition method_eqb (a b : method) : bool :=
  match a, b with
  | Steinmetz, Steinmetz | Roshen, Roshen | Micrometals, Micrometals | Magnetics, Magnetics
  | Poco, Poco | Tdg, Tdg | LossFactor, LossFactor => true
  | _, _ => false
  end.

(** One entry of the volumetric losses: a method or measured points. *)
Inductive entry := Method (m : method) | Points.

Record material := {
  name : string;
  initial_permeability : Q;
  tags : option (list application);
  complex : bool;
  frequency_dependent : bool;
  losses : list (string * list entry) }.

(** [MaterialElement] and the field of the functional description. *)
Inductive element := Named (n : string) | Inline (m : material).
Inductive field := One (e : element) | Many (l : list element).

(** The core: the field and the memo of the const resolver (Core.h:31). *)
Record core := { made_of : field; memo : option material }.

(** Core.cpp:1343-1360: the placeholder. *)
Definition dummy : material :=
  {| name := "Dummy"; initial_permeability := 0; tags := None; complex := false;
     frequency_dependent := false; losses := [] |}.

(** ** Applications *)

(** Core.cpp:2150-2165 [get_available_core_losses_methods]: each method once, in
    the order of the entries. *)
Definition add_method (found : list method) (e : entry) : list method :=
  match e with
  | Points => found
  | Method m => if existsb (method_eqb m) found then found else app found [m]
  end.
Definition available (m : material) : list method :=
  fold_left (fun found v => fold_left add_method (snd v) found) (losses m) [].

(** Core.cpp:2189-2203 [guess_material_application]. *)
Definition guess (m : material) : application :=
  match tags m with
  | Some (a :: _) => a
  | _ =>
      if existsb (method_eqb LossFactor) (available m)
      then if complex m then InterferenceSuppression else SignalProcessing
      else Power
  end.

(** Core.cpp:2210-2280 [check_material_application]. *)
Definition check (m : material) (a : application) : bool :=
  let contains b := match tags m with Some l => existsb (application_eqb b) l | None => false end in
  match a, tags m with
  | InterferenceSuppression, Some _ =>
      if negb (complex m) && negb (frequency_dependent m) then false
      else contains InterferenceSuppression || contains SignalProcessing
  | _, _ =>
      if contains a then true
      else if complex m && application_eqb a InterferenceSuppression then true
      else existsb (fun x => if method_eqb x LossFactor then application_eqb a SignalProcessing
                             else application_eqb a Power) (available m)
  end.

(** Core.cpp:2175-2182 [resolve_material_application] of a material, which is
    tagged with the guess when it has no tag. *)
Definition tagged (m : material) : material :=
  match tags m with
  | Some (_ :: _) => m
  | _ => {| name := name m; initial_permeability := initial_permeability m;
            tags := Some [guess m]; complex := complex m;
            frequency_dependent := frequency_dependent m; losses := losses m |}
  end.

(** ** Resolving *)

Section Resolve.
Variable catalogue : string -> outcome material.

(** Core.cpp:1340-1379 [resolve_material] of the field, and 1383-1388
    [material_element_to_union]. *)
Definition resolve_element (e : element) : outcome material :=
  match e with
  | Inline m => Ok m
  | Named n => if (n =? "dummy") || (n =? "Dummy") then Ok dummy else catalogue n
  end.
Definition resolve_field (f : field) : outcome material :=
  match f with
  | One e => resolve_element e
  | Many [] => Throw "InvalidInput"
  | Many (e :: _) => resolve_element e
  end.

(** Core.cpp:1314, 1333: what is written back, never over a list. *)
Definition write_back (f : field) (m : material) : field :=
  match f with Many l => Many l | One _ => One (Inline m) end.

(** Core.cpp:1310-1317 [resolve_material()]. *)
Definition resolve (c : core) : outcome (core * material) :=
  m <- resolve_field (made_of c) ;;
  Ok ({| made_of := write_back (made_of c) m; memo := Some m |}, m).

(** Core.cpp:1329-1338 [resolve_material() const]. *)
Definition peek (c : core) : outcome (core * material) :=
  match memo c with
  | Some m => Ok (c, m)
  | None =>
      m <- resolve_field (made_of c) ;;
      Ok ({| made_of := write_back (made_of c) m; memo := Some m |}, m)
  end.

(** Core.cpp:1393-1409 [resolve_materials]. *)
Fixpoint resolve_each (l : list element) : outcome (list material) :=
  match l with
  | [] => Ok []
  | e :: rest => m <- resolve_element e ;; ms <- resolve_each rest ;; Ok (m :: ms)
  end.
Definition resolve_all (c : core) : outcome (core * list material) :=
  match made_of c with
  | One _ => r <- resolve c ;; Ok (fst r, [snd r])
  | Many [] => Throw "InvalidInput"
  | Many l => ms <- resolve_each l ;; Ok (c, ms)
  end.

(** Core.cpp:1428-1431 [set_material]. *)
Definition set_material (m : material) (c : core) : core :=
  {| made_of := One (Inline m); memo := None |}.
(** [get_mutable_functional_description().set_material], and
    [set_functional_description], of the generated class: the memo is not seen. *)
Definition assign (f : field) (c : core) : core := {| made_of := f; memo := memo c |}.

(** Core.cpp:1433-1439 [set_material_initial_permeability]. *)
Definition with_permeability (v : Q) (m : material) : material :=
  {| name := name m; initial_permeability := v; tags := tags m; complex := complex m;
     frequency_dependent := frequency_dependent m; losses := losses m |}.
Definition set_permeability (v : Q) (c : core) : outcome core :=
  r <- resolve c ;;
  Ok {| made_of := One (Inline (with_permeability v (snd r))); memo := memo (fst r) |}.

(** Core.cpp:2168-2173 [resolve_material_application] of the core. *)
Definition resolve_application (c : core) : outcome (core * application) :=
  r <- resolve c ;;
  let m := tagged (snd r) in
  Ok ({| made_of := One (Inline m); memo := memo (fst r) |},
      match tags m with Some (a :: _) => a | _ => Power end).

(** ** Histories *)

Inductive op :=
| Resolve | Peek | ResolveAll | ResolveApplication
| SetMaterial (m : material) | Assign (f : field) | SetPermeability (v : Q).

(** The core after an operation; one that throws leaves it as it was (all of them
    throw before they write). *)
Definition after {A} (c : core) (o : outcome (core * A)) : core :=
  match o with Ok r => fst r | _ => c end.
Definition step (c : core) (o : op) : core :=
  match o with
  | Resolve => after c (resolve c)
  | Peek => after c (peek c)
  | ResolveAll => after c (resolve_all c)
  | ResolveApplication => after c (resolve_application c)
  | SetMaterial m => set_material m c
  | Assign f => assign f c
  | SetPermeability v => match set_permeability v c with Ok c' => c' | _ => c end
  end.
Definition run (h : list op) (c : core) : core := fold_left step h c.

End Resolve.
