(** * The currents a data sheet promises

    Models src/constructive_models/Core.cpp ([interp] and the saturation of the
    material) and src/constructive_models/Magnetic.cpp (the saturation current and
    the rated current).

    Simplified throughout: doubles are exact rational numbers; a quotient by zero,
    which is not finite, is [None]. *)
From Coq Require Import ZArith QArith Qround Qabs Qminmax List String Bool Lia Lqa.
From Verif Require Import Base.
Import ListNotations.
Local Open Scope Q_scope.
Local Open Scope outcome_scope.

(** ** Data given at some temperatures *)

(** One datum: a temperature and a value. *)
Definition datum := (Q * Q)%type.

(** Core.cpp:208-210 and 217-219, [std::sort] on the temperatures. Simplified:
    data of the same temperature keep their order ([std::sort] may swap them). *)
Fixpoint insert (d : datum) (l : list datum) : list datum :=
  match l with
  | [] => [d]
  | e :: rest => if Qlt_bool (fst e) (fst d) then e :: insert d rest else d :: l
  end.
Fixpoint sorting (l : list datum) : list datum :=
  match l with [] => [] | d :: rest => insert d (sorting rest) end.

(** Core.cpp:223-228: of the data of the same temperature the first is kept. *)
Fixpoint dedup (last : option Q) (l : list datum) : list datum :=
  match l with
  | [] => []
  | d :: rest =>
      match last with
      | Some t => if Qeq_bool (fst d) t then dedup last rest else d :: dedup (Some (fst d)) rest
      | None => d :: dedup (Some (fst d)) rest
      end
  end.

Definition over (x y : Q) : option Q := if Qeq_bool y 0 then None else Some (x / y).

Section Interp.
(** [tk::spline] of type [cspline_hermite] with its monotone correction: a
    library outside the repository, taken as any function. *)
Variable spline : list datum -> Q -> Q.

(** Core.cpp:198-243 [interp]. *)
Definition interp (data : list datum) (temperature : Q) : outcome (option Q) :=
  match data with
  | [] => Throw "InvalidInput"
  | [d] => Ok (Some (snd d))
  | [_; _] =>
      match sorting data with
      | [a; b] =>
          Ok (option_map (fun q => snd a - q)
                (over ((fst a - temperature) * (snd a - snd b)) (fst a - fst b)))
      | _ => UB "two data after sorting"
      end
  | _ =>
      match dedup None (sorting data) with
      | [] => UB "y[0]"
      | [d] => Ok (Some (snd d))
      | [a; b] =>
          Ok (option_map (fun q => snd a + q)
                (over ((temperature - fst a) * (snd b - snd a)) (fst b - fst a)))
      | points => Ok (Some (spline points temperature))
      end
  end.

(** Core.cpp:1865-1886 [Core::get_magnetic_flux_density_saturation];
    Defaults.h:23, the proportion of the saturation that is used. *)
Definition usable : Q := 7 # 10.
Definition saturation (data : list datum) (temperature : Q) (proportion : bool) : outcome (option Q) :=
  match data with
  | [] => Throw "MaterialDataMissing"
  | _ =>
      b <- interp data temperature ;;
      Ok (if proportion then option_map (fun x => usable * x) b else b)
  end.

(** Magnetic.cpp:201-251 [Magnetic::calculate_saturation_current]; lines 175-199,
    the variant at an operating point, are the same with [proportion] true and the
    inductance at that point. The nominal inductance, if any, and the effective
    area are given. *)
Definition saturation_current (data : list datum) (temperature : Q) (proportion : bool)
    (turns : Z) (area : Q) (inductance : option Q) : outcome (option Q) :=
  b <- saturation data temperature proportion ;;
  match inductance with
  | None => Throw "runtime_error"
  | Some l =>
      if Qle_bool l 0 then Throw "runtime_error"
      else Ok (option_map (fun x => x * inject_Z turns * area / l) b)
  end.

End Interp.

(** ** Rated current *)

Section Rated.
(** The ohmic losses at a copper temperature and the thermal network they are
    given to (Magnetic.cpp:273-300): from the current and the temperature of the
    winding, the hottest temperature of the component and the average one of its
    coil. *)
Variable heat : Q -> Q -> outcome (Q * Q).
Variable ambient : Q.

(** Magnetic.cpp:287-309 [steadyStateTemperature], the loop. *)
Fixpoint settle (n : nat) (current winding hottest : Q) : outcome Q :=
  match n with
  | O => Ok hottest
  | S n' =>
      r <- heat current winding ;;
      if Qlt_bool (Qabs (snd r - winding)) (5 # 100) then Ok (fst r)
      else settle n' current (snd r) (fst r)
  end.
Definition steady (current : Q) : outcome Q := settle 6 current ambient ambient.

Variable target : Q.

(** Magnetic.cpp:313-321: the upper current doubles until it heats enough. *)
Fixpoint grow (fuel : nat) (upper : Q) : outcome Q :=
  match fuel with
  | O => OutOfFuel
  | S fuel' =>
      t <- steady upper ;;
      if Qlt_bool (t - ambient) target then
        if Qlt_bool 1000000 (upper * 2) then Throw "CalculationException"
        else grow fuel' (upper * 2)
      else Ok upper
  end.

(** Magnetic.cpp:326-341: the bisection. *)
Fixpoint bisect (n : nat) (lower upper : Q) : outcome Q :=
  let mid := (1 # 2) * (lower + upper) in
  match n with
  | O => Ok mid
  | S n' =>
      t <- steady mid ;;
      if Qlt_bool (Qabs (t - ambient - target)) (1 # 10) then Ok mid
      else if Qlt_bool (t - ambient) target then bisect n' mid upper
      else bisect n' lower mid
  end.

(** Magnetic.cpp:253-341 [Magnetic::calculate_rated_current]. *)
Definition rated_current : outcome Q :=
  if Qle_bool target 0 then Throw "invalid_argument"
  else upper <- grow 64 1 ;; bisect 40 0 upper.

End Rated.
