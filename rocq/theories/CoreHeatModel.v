(** * The temperature of a core from its losses

    Models src/physical_models/CoreTemperature.cpp: the five models.

    Simplified throughout: doubles are real numbers, and one that is not finite
    (NaN or infinite) is [None] ([figure] of CoreLossModel). *)
From Coq Require Import Reals List Lra ZArith String.
From Verif Require Import Base CoreLossModel.
Import ListNotations.
Local Open Scope R_scope.
Local Open Scope outcome_scope.

(** What the models read of a core: its effective volume, its outer size, the
    areas of its columns and of its winding windows ([None]: no area given). *)
Record body := {
  volume : R; width : R; height : R; depth : R;
  columns : list R; windows : list (option R) }.

Inductive heat_model := Kazimierczuk | Maniktala | Tdk | Dixon | Amidon.

(** [TemperatureOutput]: what is reported. *)
Record report := { initial : R; maximum : figure; bulk : figure }.

(** [sqrt] and the quotient by it, CoreTemperature.cpp:87. *)
Definition over_root (x : R) : figure := if Rlt_dec 0 x then Some (1 / sqrt x) else None.

(** CoreTemperature.cpp:66 and 131: the surface of the box around the core. *)
Definition surface (c : body) : R :=
  2 * depth c * height c + 2 * height c * width c + 2 * width c * depth c.

Definition fpow (x : figure) (y : R) : figure :=
  match x with Some a => cpow a y | None => None end.

(** CoreTemperature.cpp:44-152, the rise of each model. *)
Definition temperature_rise (m : heat_model) (c : body) (losses : R) : outcome figure :=
  match m with
  | Maniktala => Ok (fmul (Some losses) (fmul (Some 53) (cpow (volume c * 1000000) (- (54 / 100)))))
  | Kazimierczuk => Ok (fpow (fdiv (Some (1 / 10 * losses)) (Some (surface c))) (826 / 1000))
  | Tdk => Ok (fmul (Some losses) (over_root (volume c * 1000000)))
  | Dixon =>
      match columns c, windows c with
      | [], _ => UB "columns[0]"
      | _, [] => UB "winding_windows[0]"
      | _, None :: _ => Throw "bad_optional_access"
      | column :: _, Some window :: _ =>
          Ok (fmul (Some losses) (fmul (Some 23) (cpow (column * window * 100000000) (- (37 / 100)))))
      end
  | Amidon => Ok (fpow (fdiv (Some (losses * 1000)) (Some (surface c * 10000))) (833 / 1000))
  end.

(** CoreTemperature.cpp:44-152 [get_core_temperature]: what is reported. *)
Definition core_temperature (m : heat_model) (c : body) (losses ambient : R) : outcome report :=
  rise <- temperature_rise m c losses ;;
  let hot := fadd (Some ambient) rise in
  Ok {| initial := ambient; maximum := hot;
        bulk := if Rlt_dec 0 losses
                then fdiv (fadd hot (Some (- ambient))) (Some losses) else Some 0 |}.
