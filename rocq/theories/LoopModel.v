(** Model of src/physical_models/AmplitudePermeability.cpp: the hysteresis loop of a
    material and the permeability taken from it.

    Simplified throughout: doubles are rational numbers, so there is no rounding; a
    division by zero gives 0 where the program gets an infinity or no number. *)
From Coq Require Import QArith Qabs List Bool String ZArith.
From Verif Require Import Base.
Import ListNotations.
Local Open Scope Q_scope.

(** AmplitudePermeability.cpp:86-89: what is known of the material at the temperature:
    field and flux density at saturation, coercive force, remanence. *)
Record limb := mkLimb { h0 : Q; b0 : Q; hc : Q; br : Q }.

(** AmplitudePermeability.cpp:49-71 [get_major_loop_parameters]. *)
Definition b1 (m : limb) : Q := (h0 m / b0 m + hc m / b0 m - 0 / br m - hc m / br m) / (h0 m - 0).
Definition a1 (m : limb) : Q := (hc m - br m * b1 m * hc m) / br m.
Definition b2 (m : limb) : Q := (- h0 m + hc m - - b0 m * a1 m) / (- b0 m * Qabs (- h0 m + hc m)).

(** AmplitudePermeability.cpp:152-154. *)
Definition half (m : limb) (h a b : Q) : Q := (h + hc m) / (a + b * Qabs (h + hc m)).
(** AmplitudePermeability.cpp:156-176. *)
Definition below (a b : Q) : bool := negb (Qle_bool b a).
Definition upper (m : limb) (h : Q) : Q :=
  if below h (- hc m) then half m h (a1 m) (b2 m) else half m h (a1 m) (b1 m).
Definition lower (m : limb) (h : Q) : Q :=
  if below h (hc m) then - half m (- h) (a1 m) (b1 m) else - half m (- h) (a1 m) (b2 m).

(** AmplitudePermeability.cpp:99-136: the fields looked at. *)
Definition shares : list Q := [1 # 1000; 1 # 100; 1 # 10; 1 # 2; 9 # 10; 95 # 100; 1].
Definition fields (m : limb) (peak : option Q) : list Q :=
  [- h0 m; - hc m; 0; hc m; h0 m; h0 m * (1 # 1000); - (h0 m * (1 # 1000)); hc m * (1 # 10); - hc m * (1 # 10)]
  ++ match peak with
     | Some p => if below 0 p then map (fun s => p * s) shares ++ map (fun s => - p * s) shares else []
     | None => []
     end.
(** AmplitudePermeability.cpp:139-142: sorted, and of those closer than a millionth to
    the last one kept none. *)
Fixpoint put (x : Q) (l : list Q) : list Q :=
  match l with [] => [x] | y :: rest => if Qle_bool x y then x :: l else y :: put x rest end.
Fixpoint lined (l : list Q) : list Q := match l with [] => [] | x :: rest => put x (lined rest) end.
Definition millionth : Q := 1 # 1000000.
Fixpoint thinned (before : option Q) (l : list Q) : list Q :=
  match l with
  | [] => []
  | x :: rest =>
      match before with
      | Some b => if below (Qabs (b - x)) millionth then thinned before rest else x :: thinned (Some x) rest
      | None => x :: thinned (Some x) rest
      end
  end.
(** AmplitudePermeability.cpp:144-150: the bounds. *)
Definition bounded (m : limb) (l : list Q) : list Q :=
  let l := match l with x :: _ => if below (- h0 m) x then - h0 m :: l else l | [] => l end in
  match rev l with x :: _ => if below x (h0 m) then (l ++ [h0 m])%list else l | [] => l end.
Definition grid (m : limb) (peak : option Q) : list Q := bounded m (thinned None (lined (fields m peak))).

(** AmplitudePermeability.cpp:178-193: both branches over the fields. *)
Record row := mkRow { at_field : Q; up : Q; down : Q }.
Definition rows (m : limb) (peak : option Q) : list row := map (fun h => mkRow h (upper m h) (lower m h)) (grid m peak).
(** Each fraction is kept in lowest terms, which does not change its value. *)
Definition shifted (s : Q) (l : list row) : list row :=
  map (fun r => mkRow (at_field r) (Qred (up r - s)) (Qred (down r + s))) l.
(** The first row of the least figure. *)
Fixpoint least (figure : row -> Q) (best : row) (l : list row) : row :=
  match l with
  | [] => best
  | r :: rest => if below (figure r) (figure best) then least figure r rest else least figure best rest
  end.
Definition within (x limit : Q) : bool := Qle_bool x limit && Qle_bool (- limit) x.

(** AmplitudePermeability.cpp:198-238: the minor loop of a given peak field. *)
Definition by_field (m : limb) (p : Q) : list (Q * Q) * list (Q * Q) :=
  match rows m (Some p) with
  | [] => ([], [])
  | r :: rest =>
      let tip := least (fun x => Qabs (at_field x - p)) r rest in
      let l := shifted (Qabs (up tip - down tip) / 2) (r :: rest) in
      let kept := filter (fun x => within (at_field x) p) l in
      (map (fun x => (at_field x, up x)) kept, map (fun x => (at_field x, down x)) kept)
  end.
(** AmplitudePermeability.cpp:239-268: at most ten steps towards a given peak flux
    density; [n] is how many were made. *)
Fixpoint settle (left n : nat) (tolerance difference p : Q) (r : row) (rest : list row) : list row :=
  if Qle_bool (Qabs difference) tolerance then r :: rest
  else
    match left with
    | O => r :: rest
    | S left' =>
        let low := least (fun x => Qabs (up x - down x)) r rest in
        let d := Qabs (up low) - p in
        match shifted (d / 16) (r :: rest) with
        | [] => []
        | r' :: rest' => settle left' (S n) (tolerance + inject_Z (Z.of_nat (S n)) * (1 # 10000)) d p r' rest'
        end
    end.
(** AmplitudePermeability.cpp:270-287. *)
Definition by_density (m : limb) (p : Q) : list (Q * Q) * list (Q * Q) :=
  match rows m None with
  | [] => ([], [])
  | r :: rest =>
      let l := settle 10 0 (1 # 1000) p p r rest in
      (map (fun x => (at_field x, up x)) (filter (fun x => within (up x) p) l),
       map (fun x => (at_field x, down x)) (filter (fun x => within (down x) p) l))
  end.
(** AmplitudePermeability.cpp:81-290 [get_hysteresis_loop]: the field comes first. *)
Definition hysteresis (m : limb) (density field : option Q) : list (Q * Q) * list (Q * Q) :=
  match field, density with
  | Some p, _ => by_field m p
  | None, Some p => by_density m p
  | None, None => ([], [])
  end.

(** AmplitudePermeability.cpp:12-47 [get_amplitude_permeability]; [vacuum] is the
    permeability of vacuum. *)
Definition amplitude (vacuum : Q) (m : limb) (density field : option Q) : outcome (option Q) :=
  match density, field with
  | None, None => Throw "Either H or B must be specified"
  | _, _ =>
      Ok (match fst (hysteresis m density field) with
          | (x, y) :: (x', y') :: _ =>
              let dx := Qabs (x' - x) in
              if below dx (1 # 1000000000000) then None else Some (Qabs (y' - y) / dx / vacuum)
          | _ => None
          end)
  end.
