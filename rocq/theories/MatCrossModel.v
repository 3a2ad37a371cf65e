(** Model of src/advisers/CoreMaterialCrossReferencer.cpp: the materials most similar to a
    reference material.

    Simplified throughout: doubles are exact, and the figures of a material at the
    temperature of the search are given (Curie temperature and losses may be missing, the
    others never are).  The filters keep their default configuration (linear, inverted),
    CoreMaterialCrossReferencer.h:24-32. *)
From Coq Require Import QArith Qabs List Bool Arith.
From Verif Require Import Base CrossModel.
Import ListNotations.
Local Open Scope Q_scope.

Inductive trait := InitialPermeability | Remanence | CoerciveForce | Saturation | Curie | VolumetricLosses | Resistivity.
(** A material: name, manufacturer, application guessed, type, and its figures. *)
Record material := mkMaterial {
  x_name : nat; x_maker : nat; x_application : nat; x_type : nat;
  x_permeability : Q; x_remanence : Q; x_coercive : Q; x_saturation : Q;
  x_curie : option Q; x_losses : option Q; x_resistivity : Q
}.
Definition value (t : trait) (m : material) : option Q :=
  match t with
  | InitialPermeability => Some (x_permeability m)
  | Remanence => Some (x_remanence m)
  | CoerciveForce => Some (x_coercive m)
  | Saturation => Some (x_saturation m)
  | Curie => x_curie m
  | VolumetricLosses => x_losses m
  | Resistivity => Some (x_resistivity m)
  end.

Section Search.
Variable ref : material.
Variable weight : trait -> Q.
(** CoreMaterialCrossReferencer.cpp:205-223 and :326-351: those with a figure, with the
    distance; without a missing figure also :70-80, :101-111, :132-142, :163-173 and
    :380-390. *)
Fixpoint measured (t : trait) (r : Q) (l : list (material * Q)) : list ((material * Q) * Q) :=
  match l with
  | [] => []
  | x :: q =>
      match value t (fst x) with
      | Some v => (x, Qabs (r - v)) :: measured t r q
      | None => measured t r q
      end
  end.
(** The seven [filter_core_materials], CoreMaterialCrossReferencer.cpp:59-232 and
    :293-398: no weight or no figure of the reference leaves the list as it is. *)
Definition by_trait (l : list (material * Q)) (t : trait) : list (material * Q) :=
  if Qle_bool (weight t) 0 then l
  else match value t ref with
       | None => l
       | Some r => let s := measured t r l in grade (weight t) (map fst s) (map snd s)
       end.
(** CoreMaterialCrossReferencer.cpp:457-474, in this order; CrossReferencerCommon.h:306-319. *)
Definition traits : list trait := [InitialPermeability; Remanence; CoerciveForce; Saturation; Curie; VolumetricLosses; Resistivity].
(** CoreMaterialCrossReferencer.cpp:414-420 and :448-454: who takes part. *)
Definition takes_part (maker : option nat) (any_type : bool) (m : material) : bool :=
  negb (Nat.eqb (x_name m) (x_name ref)) && match maker with Some k => Nat.eqb (x_maker m) k | None => true end &&
  Nat.eqb (x_application m) (x_application ref) && (any_type || Nat.eqb (x_type m) (x_type ref)).
(** CoreMaterialCrossReferencer.cpp:404-480 [get_cross_referenced_core_material] and
    [apply_filters]. *)
Definition similar_materials (maker : option nat) (any_type : bool) (most : nat) (db : list material) : list (material * Q) :=
  firstn most (fold_left by_trait traits (map (fun m => (m, 0)) (filter (takes_part maker any_type) db))).
End Search.
