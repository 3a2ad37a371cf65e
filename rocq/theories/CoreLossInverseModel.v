(** * Core losses: frequency and flux density from the losses

    Models the inverses of src/physical_models/CoreLosses.cpp and CoreLosses.h:
    closed forms for Steinmetz and the manufacturers, and the searches on a grid
    of the other models; over the real numbers, with the conventions of
    CoreLossModel.v. *)
From Coq Require Import Reals List Lra Lia ZArith String.
From Verif Require Import Base SizingModel CoreLossModel CoreLossChoiceModel.
Import ListNotations.
Local Open Scope R_scope.
Local Open Scope outcome_scope.

(** ** Steinmetz *)

(** CoreLosses.cpp:2591-2593 and 2559: the losses per volume before the
    correction for the temperature. *)
Definition uncorrected (d : steinmetz) (t volume losses : R) : R := losses / volume / temperature_factor d t.

(** CoreLosses.cpp:2577-2602 [get_magnetic_flux_density_from_core_losses]: the
    peak; the peak to peak is twice it and the offset zero. *)
Definition flux_density_from (ranges : list steinmetz) (f t volume losses : R) : outcome figure :=
  d <- coefficients ranges f ;;
  Ok (match fdiv (Some (uncorrected d t volume losses)) (fmul (Some (k_ d)) (cpow f (alpha_ d))) with
      | Some q => match fdiv (Some 1) (Some (beta_ d)) with Some x => cpow q x | None => None end
      | None => None
      end).

(** CoreLosses.h:108-121 [get_magnetic_flux_density_from_volumetric_losses]. *)
Definition flux_density_of_datum (d : steinmetz) (volumetric f t : R) : figure :=
  let term := match ct0 d, ct1 d, ct2 d with
              | Some c0, Some c1, Some c2 => c2 * t ^ 2 - c1 * t + c0
              | _, _, _ => 1
              end in
  match fdiv (fdiv (fdiv (Some volumetric) (Some (k_ d))) (cpow f (alpha_ d))) (Some term) with
  | Some q => match fdiv (Some 1) (Some (beta_ d)) with Some x => cpow q x | None => None end
  | None => None
  end.

(** CoreLosses.cpp:2554-2562: one step, the frequency by the datum. *)
Definition frequency_by (d : steinmetz) (t volume losses ac : R) : figure :=
  match fdiv (Some (uncorrected d t volume losses)) (fmul (Some (k_ d)) (cpow ac (beta_ d))) with
  | Some q => match fdiv (Some 1) (Some (alpha_ d)) with Some x => cpow q x | None => None end
  | None => None
  end.

(** CoreLosses.cpp:2529-2575 [get_frequency_from_core_losses]: [n] iterations are
    left; the datum is the one of the last frequency. *)
Fixpoint converge (n : nat) (ranges : list steinmetz) (t volume losses ac : R) (d : steinmetz) (previous : R)
  : outcome R :=
  match frequency_by d t volume losses ac with
  | None => Throw "InvalidInputException"
  | Some f =>
      d' <- coefficients ranges f ;;
      if Req_EM_T (alpha_ d') (alpha_ d) then Ok f
      else if (if Rlt_dec 0 previous then if Rlt_dec (Rabs (f - previous) / previous) (1 / 1000000) then true else false
               else false) then Ok f
      else match n with
           | O => Throw "CalculationException"
           | S m => converge m ranges t volume losses ac d' f
           end
  end.
Definition frequency_from (ranges : list steinmetz) (peak offset t volume losses : R) : outcome R :=
  d <- coefficients ranges 100000 ;;
  converge 49 ranges t volume losses (peak - offset) d 100000.

(** ** The manufacturers *)

(** The greater root of [a x ^ 2 + b x + c], as the code writes it. *)
Definition root (a b c : R) : figure :=
  if Rlt_dec (b ^ 2 - 4 * a * c) 0 then None
  else fdiv (Some (- b + sqrt (b ^ 2 - 4 * a * c))) (Some (2 * a)).

(** CoreLosses.cpp:2752-2816.  Its peak is the one of the flux density, with its
    offset.  Micrometals takes no flux density as zero over zero. *)
Definition negative (x : figure) : bool := match x with Some v => if Rlt_dec v 0 then true else false | None => false end.
Definition proprietary_frequency (m : material) (peak volume mass losses : R) : outcome figure :=
  let density := losses / volume in
  f <- (match proprietary_kind m with
        | Some KMicrometals =>
            x <- method_data_of m KMicrometals ;; a <- value_of (a_ x) ;; b <- value_of (b_ x) ;;
            c <- value_of (c_ x) ;; d <- value_of (d_ x) ;;
            Ok (match cpow peak 2, hyperbola 1 a b c peak with
                | Some p, Some h => root (d * p) h (- density)
                | _, _ => None
                end)
        | Some KMagnetics =>
            x <- method_data_of m KMagnetics ;; a <- value_of (a_ x) ;; b <- value_of (b_ x) ;;
            c <- value_of (c_ x) ;;
            Ok (match fdiv (Some density) (fmul (Some a) (cpow peak b)), fdiv (Some 1) (Some c) with
                | Some q, Some y => cpow q y
                | _, _ => None
                end)
        | Some KPoco =>
            x <- method_data_of m KPoco ;; a <- value_of (a_ x) ;; b <- value_of (b_ x) ;;
            c <- value_of (c_ x) ;;
            Ok (match cpow (peak * 10) 2, cpow (peak * 10) b with
                | Some p, Some q => fmul (Some 1000) (root (c * p) (a * q) (- density / 1000))
                | _, _ => None
                end)
        | Some KTdg => Throw "NotImplementedException"
        | _ =>
            if has_magnetec m then
              Ok (match fdiv (Some (losses / mass / 80)) (cpow (peak * 2 / (3 / 10)) 2) with
                  | Some q => fmul (cpow q (10 / 18)) (Some 100000)
                  | None => None
                  end)
            else Ok (Some (-(1)))
        end) ;;
  if negative f then Throw "MaterialException" else Ok f.

(** ** The searches of the other models *)

(** The values a loop visits. *)
Definition grid (first step : R) (n : nat) : list R := map (fun i => first + step * INR i) (seq 0 n).

(** CoreLosses.cpp:2818-2840 [_get_frequency_from_core_losses]: 398 frequencies
    from 10 kHz on, every 5 kHz.  [losses f] is what the model gives.  Simplified:
    the losses of the model are numbers.  No losses make the error infinite or
    NaN, and neither is below the minimum. *)
Fixpoint scan (losses : R -> outcome R) (wanted : R) (points : list R) (best : option (R * R)) : outcome (option R) :=
  match points with
  | [] => Ok (option_map snd best)
  | x :: rest =>
      y <- losses x ;;
      let error := Rabs (y - wanted) / wanted in
      scan losses wanted rest
        (if Req_EM_T wanted 0 then best
         else match best with
              | Some (lowest, _) => if Rlt_dec error lowest then Some (error, x) else best
              | None => Some (error, x)
              end)
  end.
Definition frequency_scan (losses : R -> outcome R) (wanted : R) : outcome R :=
  r <- scan losses wanted (grid 10000 5000 398) None ;;
  Ok (match r with Some f => f | None => -(1) end).

(** CoreLosses.cpp:2842-2884 [_get_magnetic_flux_density_from_core_losses]: 199
    peaks from 5 mT on, every 5 mT, until the error grows.  [None] is the result
    without a flux density. *)
Fixpoint descend (losses : R -> outcome R) (wanted : R) (points : list R) (best : option (R * R))
    (previous : option R) : outcome (option R) :=
  match points with
  | [] => Ok (option_map snd best)
  | x :: rest =>
      y <- losses x ;;
      let error := Rabs (y - wanted) / wanted in
      if Req_EM_T wanted 0 then descend losses wanted rest best previous
      else
        let best := match best with
                    | Some (lowest, _) => if Rlt_dec error lowest then Some (error, x) else best
                    | None => Some (error, x)
                    end in
        match previous with
        | Some p => if Rlt_dec p error then Ok (option_map snd best)
                    else descend losses wanted rest best (Some error)
        | None => descend losses wanted rest best (Some error)
        end
  end.
Definition flux_density_scan (losses : R -> outcome R) (wanted : R) : outcome (option R) :=
  descend losses wanted (grid (5 / 1000) (5 / 1000) 199) None None.
