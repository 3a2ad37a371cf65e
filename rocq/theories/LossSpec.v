(** What a coil dissipates, said without the model's loops: by the turns and
    leads each winding has, and Ohm's law. *)
From Coq Require Import ZArith QArith List String Bool Lia Lra Lqa.
From Verif Require Import Base QAux LossModel.
Import ListNotations.
Open Scope string_scope.
Open Scope list_scope.
Open Scope Q_scope.

(** winding names are distinct *)
Definition distinct (c : coil) : Prop := NoDup (map w_name (windings c)).

(** ohms per metre of a winding's wire *)
Definition ohm_per_metre (x : winding) (temperature : Q) : Q :=
  reference_value (w_material x)
  * (1 + coefficient (w_material x) * (temperature - reference_temperature (w_material x)))
  / w_area x.

(** the turns of one of the parallel conductors of a winding *)
Definition in_branch (x : winding) (p : nat) (t : turn) : bool :=
  String.eqb (t_winding t) (w_name x) && (t_parallel t =? Z.of_nat p)%Z.
Definition metres (t : turn) : Q := match t_length t with Some q => q | None => 0 end.
Definition turn_metres (l : list turn) (x : winding) (p : nat) : Q :=
  Qsum (map metres (filter (in_branch x p) l)).

(** the connections recorded for a conductor, terminal leads or crossings *)
Definition routed_metres (c : coil) (x : winding) (p : nat) (terminal : bool) : Q :=
  Qsum (map (fun s => match s_routed s with Some q => q | None => 0 end)
    (filter (fun s => String.eqb (s_winding s) (w_name x) && (s_parallel s =? Z.of_nat p)%Z
                      && Bool.eqb (s_terminal s) terminal) (spaces c))).
(** the lengths the user gave for the connections of the winding *)
Definition given_metres (x : winding) : Q :=
  match w_connections x with
  | None => 0
  | Some l => Qsum (map (fun o => match o with Some q => q | None => 0 end) l)
  end.
(** copper outside the turns *)
Definition lead_metres (c : coil) (x : winding) (p : nat) : Q :=
  if real_geometry c then
    routed_metres c x p false +
    (if Qlt_bool 0 (given_metres x)
     then given_metres x / inject_Z (Z.of_nat (w_parallels x))
     else routed_metres c x p true)
  else 0.

(** when no conductor of the winding has a lead longer than nothing, leads are
    left out altogether *)
Definition charged_lead (c : coil) (x : winding) (p : nat) : Q :=
  if existsb (fun q => Qlt_bool 0 (lead_metres c x q)) (seq 0 (w_parallels x))
  then lead_metres c x p else 0.

(** ohms of a conductor, leads and turns in series *)
Definition branch_ohms (c : coil) (l : list turn) (temperature : Q) (x : winding) (p : nat) : Q :=
  ohm_per_metre x temperature * (turn_metres l x p + charged_lead c x p).
