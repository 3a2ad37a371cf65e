(** Model of the core adviser: scoring, filters, pipelines, batching and the
    candidate dataset (src/advisers/CoreAdviser*.cpp).

    What a filter measures (losses, saturation, cost, ...) is a parameter: the
    record [physics] gives, for each filter, a function of the candidate.  The
    model is about what the adviser does with those measurements.

    Simplifications, for the whole file: measurements are functions of the
    candidate (the code hands the filters a private copy of the inputs and the
    filters keep caches keyed by the candidate); log entries and the record of
    partial scores ([add_scoring]) are left out; the inputs are fixed, so
    [pre_process_inputs] has already been applied. *)
From Coq Require Import ZArith QArith List String Ascii Bool Arith Decimal DecimalString DecimalNat.
From Verif Require Import Base UtilsNumModel.
Import ListNotations.
Open Scope outcome_scope.
Open Scope Q_scope.

(** ** Doubles with infinities and NaN, exact otherwise. *)
Inductive dbl : Type := Fin (q : Q) | PInf | MInf | NaN.

Definition dneg (a : dbl) : dbl :=
  match a with Fin q => Fin (- q) | PInf => MInf | MInf => PInf | NaN => NaN end.
Definition dadd (a b : dbl) : dbl :=
  match a, b with
  | NaN, _ | _, NaN => NaN
  | PInf, MInf | MInf, PInf => NaN
  | PInf, _ | _, PInf => PInf
  | MInf, _ | _, MInf => MInf
  | Fin x, Fin y => Fin (x + y)
  end.
Definition dsub (a b : dbl) : dbl := dadd a (dneg b).
(** [w * a] for a finite [w]. *)
Definition dscale (w : Q) (a : dbl) : dbl :=
  match a with
  | Fin x => Fin (w * x)
  | NaN => NaN
  | PInf => if Qeq_bool w 0 then NaN else if Qlt_bool 0 w then PInf else MInf
  | MInf => if Qeq_bool w 0 then NaN else if Qlt_bool 0 w then MInf else PInf
  end.
(** [a / b]; the sign of a zero denominator is taken as plus: the denominators
    below are differences, and [x - x] is [+0]. *)
Definition ddiv (a b : dbl) : dbl :=
  match a, b with
  | NaN, _ | _, NaN => NaN
  | Fin x, Fin y =>
      if Qeq_bool y 0 then
        (if Qeq_bool x 0 then NaN else if Qlt_bool 0 x then PInf else MInf)
      else Fin (x / y)
  | Fin _, _ => Fin 0
  | PInf, Fin y => if Qlt_bool y 0 then MInf else PInf
  | MInf, Fin y => if Qlt_bool y 0 then PInf else MInf
  | _, _ => NaN
  end.
(** [a > b] on doubles. *)
Definition dgt (a b : dbl) : bool :=
  match a, b with
  | NaN, _ | _, NaN => false
  | Fin x, Fin y => Qlt_bool y x
  | PInf, PInf => false | PInf, _ => true
  | _, PInf => false
  | MInf, _ => false
  | _, MInf => true
  end.
Definition is_nan (a : dbl) : bool := match a with NaN => true | _ => false end.
Definition of_nan (v : nanQ) : dbl := match v with Some q => Fin q | None => NaN end.

Section Adviser.

(** [std::log10] on positive doubles: any function. *)
Variable lg : Q -> Q.
Definition dlog (v : nanQ) : dbl :=
  match v with
  | None => NaN
  | Some q => if Qlt_bool q 0 then NaN else if Qeq_bool q 0 then MInf else Fin (lg q)
  end.

(** The floor of src/support/Utils.cpp:3077 and 3087: [1e-10]. *)
Definition tiny : Q := 1 # 10000000000.

(** src/support/Utils.cpp:3067-3117 [normalize_scoring], the vector overload,
    both modes; body of the loop for one score that is not NaN. *)
Definition normalised (mx mn : nanQ) (weight : Q) (invert log : bool) (v : Q) : dbl :=
  let value := if log && Qeq_bool v 0 then tiny else v in
  let same := match mx, mn with Some a, Some b => Qeq_bool a b | _, _ => false end in
  if same then Fin weight
  else
    if log then
      let part := dsub (dlog (Some value)) (dlog mn) in
      let whole := dsub (dlog mx) (dlog mn) in
      if invert then dscale weight (dsub (Fin 1) (ddiv part whole))
      else ddiv (dscale weight part) whole
    else
      let part := dsub (Fin value) (of_nan mn) in
      let whole := dsub (of_nan mx) (of_nan mn) in
      if invert then dscale weight (dsub (Fin 1) (ddiv part whole))
      else ddiv (dscale weight part) whole.

Fixpoint normalise_loop (mx mn : nanQ) (weight : Q) (invert log : bool) (l : list nanQ)
  : outcome (list dbl) :=
  match l with
  | [] => Ok []
  | None :: _ => Throw "scoring cannot be nan in normalize_scoring"
  | Some v :: t =>
      r <- normalise_loop mx mn weight invert log t ;;
      Ok (normalised mx mn weight invert log v :: r)
  end.

Definition normalise (scoring : list nanQ) (weight : Q) (invert log : bool)
  : outcome (list dbl) :=
  match scoring with
  | [] => Ok []
  | x :: l =>
      let mx := max_element x l in
      let mn := min_element x l in
      let mn' := match mn with
                 | Some b => if log && Qeq_bool b 0 then Some tiny else mn
                 | None => None
                 end in
      normalise_loop mx mn' weight invert log scoring
  end.

(** src/advisers/CoreAdviser.cpp:111-123 [normalize_scoring]: candidate [i] gets
    the [i]-th contribution. *)
Fixpoint add_contributions {A : Type} (l : list (A * dbl)) (n : list dbl)
  : outcome (list (A * dbl)) :=
  match l, n with
  | [], _ => Ok []
  | _ :: _, [] => UB "normalizedScorings[i] out of range"
  | (a, s) :: t, x :: u => r <- add_contributions t u ;; Ok ((a, dadd s x) :: r)
  end.

(** src/advisers/CoreAdviser.cpp:125-129 [sort_magnetics_by_scoring]: a stable
    sort by falling score.  With a NaN among two scores or more the comparison
    is not a strict weak order, and the behaviour of [std::stable_sort] is
    undefined. *)
Fixpoint insert {A : Type} (x : A * dbl) (l : list (A * dbl)) : list (A * dbl) :=
  match l with
  | [] => [x]
  | y :: t => if dgt (snd y) (snd x) then y :: insert x t else x :: l
  end.
Fixpoint by_score {A : Type} (l : list (A * dbl)) : list (A * dbl) :=
  match l with [] => [] | x :: t => insert x (by_score t) end.
Definition sort {A : Type} (l : list (A * dbl)) : outcome (list (A * dbl)) :=
  if (2 <=? List.length l)%nat && existsb (fun x => is_nan (snd x)) l
  then UB "stable_sort with a NaN"
  else Ok (by_score l).

(** ** Filters *)

Variable M : Type. (* a candidate magnetic *)
Variable D : Type. (* a finished design, the Mas of the API *)

(** What evaluating a candidate can do: a verdict and a raw score, with the
    candidate as the evaluation leaves it; an OpenMagneticsException; any other
    exception. *)
Inductive evaluation : Type :=
| Verdict (valid : bool) (score : nanQ) (after : M)
| Infeasible (why : string)
| Fatal (why : string).

(** src/advisers/CoreAdviserFilters.cpp:51-100 [evaluate_and_cull].  The two
    loops of the code are one here: the second drops exactly the indexes the
    first one listed. *)
Fixpoint cull (evaluate : M -> evaluation) (write_back : bool) (l : list (M * dbl))
  : outcome (list (M * dbl) * list nanQ) :=
  match l with
  | [] => Ok ([], [])
  | (m, s) :: t =>
      match evaluate m with
      | Fatal e => Throw e
      | Infeasible _ => cull evaluate write_back t
      | Verdict false _ _ => cull evaluate write_back t
      | Verdict true score m' =>
          r <- cull evaluate write_back t ;;
          Ok (((if write_back then m' else m), s) :: fst r, score :: snd r)
      end
  end.

(** The scoring buckets and their configuration,
    src/advisers/CoreAdviser.h:152-157: (invert, log). *)
Inductive bucket : Type := COST | EFFICIENCY | DIMENSIONS | TURN_COUNT.
Definition log_scale (b : bucket) : bool :=
  match b with COST | EFFICIENCY => true | DIMENSIONS | TURN_COUNT => false end.

(** src/advisers/CoreAdviserFilters.cpp:107-121 [apply_normalized_scoring]. *)
Definition apply_scoring (b : bucket) (weight : Q) (l : list (M * dbl)) (raw : list nanQ)
  : outcome (list (M * dbl)) :=
  match l with
  | [] => Ok []
  | _ =>
      n <- normalise raw weight true (log_scale b) ;;
      l' <- add_contributions l n ;;
      sort l'
  end.

(** src/advisers/CoreAdviserFilters.cpp:125-137 (and the filters written like
    it, 143-190, 247-259, 321-340): the gate always, the score when weighted. *)
Definition gate_filter (evaluate : M -> evaluation) (write_back : bool) (b : bucket)
  (weight : Q) (l : list (M * dbl)) : outcome (list (M * dbl)) :=
  r <- cull evaluate write_back l ;;
  if Qlt_bool 0 weight then apply_scoring b weight (fst r) (snd r) else Ok (fst r).

(** src/advisers/CoreAdviserFilters.cpp:297-319 and 364-383: skipped without a
    weight (minimum impedance, temperature). *)
Definition skippable_filter (evaluate : M -> evaluation) (b : bucket) (weight : Q)
  (l : list (M * dbl)) : outcome (list (M * dbl)) :=
  if Qle_bool weight 0 then Ok l
  else
    r <- cull evaluate true l ;; apply_scoring b weight (fst r) (snd r).

(** src/advisers/CoreAdviserFilters.cpp:342-357, with [firstFilter] set: a gate
    without a score. *)
Definition saturation_filter (evaluate : M -> evaluation) (l : list (M * dbl))
  : outcome (list (M * dbl)) :=
  r <- cull evaluate true l ;; Ok (fst r).

(** src/advisers/CoreAdviserFilters.cpp:196-245.  [cannot_score m] is the test
    of lines 223-227 on the first candidate: several windings in the inputs and
    another number of windings on it. *)
Definition losses_filter (evaluate : M -> evaluation) (cannot_score : M -> bool)
  (weight : Q) (l : list (M * dbl)) : outcome (list (M * dbl)) :=
  if Qle_bool weight 0 then Ok l
  else
    match l with
    | (m, _) :: _ =>
        if cannot_score m then Ok l
        else r <- cull evaluate true l ;; apply_scoring EFFICIENCY weight (fst r) (snd r)
    | [] => Ok []
    end.

(** src/advisers/CoreAdviserFilters.cpp:266-295: fewer turns, higher score,
    without the common normalisation. *)
Definition turn_contribution (mx mn : nanQ) (weight : Q) (v : nanQ) : dbl :=
  if nan_lt mn mx then
    dscale weight (dsub (Fin 1) (ddiv (dsub (of_nan v) (of_nan mn)) (dsub (of_nan mx) (of_nan mn))))
  else Fin (weight * (1 # 2)).
Definition turn_count_filter (evaluate : M -> evaluation) (weight : Q) (l : list (M * dbl))
  : outcome (list (M * dbl)) :=
  if Qle_bool weight 0 then Ok l
  else
    r <- cull evaluate false l ;;
    match snd r with
    | [] => Ok (fst r)
    | x :: u =>
        l' <- add_contributions (fst r)
                (map (turn_contribution (max_element x u) (min_element x u) weight) (snd r)) ;;
        sort l'
    end.

(** What giving a candidate its turns and gap can do
    (src/advisers/CoreAdviserDataset.cpp:497-824 and
    src/advisers/CoreAdviserGapping.cpp:320-399): a sized candidate, a
    candidate that is dropped, an exception that leaves the adviser. *)
Inductive sizing : Type := Sized (after : M) | Dropped | Abort (why : string).
Fixpoint size_all (size : M -> sizing) (l : list (M * dbl)) : outcome (list (M * dbl)) :=
  match l with
  | [] => Ok []
  | (m, s) :: t =>
      match size m with
      | Abort e => Throw e
      | Dropped => size_all size t
      | Sized m' => r <- size_all size t ;; Ok ((m', s) :: r)
      end
  end.

(** src/advisers/CoreAdviserGapping.cpp:426-439, the lambda [filterAtLimit]: the
    original candidate is kept, and no exception is caught. *)
Fixpoint keep_valid (evaluate : M -> evaluation) (l : list (M * dbl)) : outcome (list (M * dbl)) :=
  match l with
  | [] => Ok []
  | (m, s) :: t =>
      match evaluate m with
      | Fatal e | Infeasible e => Throw e
      | Verdict true _ _ => r <- keep_valid evaluate t ;; Ok ((m, s) :: r)
      | Verdict false _ _ => keep_valid evaluate t
      end
  end.
(** src/advisers/CoreAdviserGapping.cpp:402-470 [reject_winding_killing_gaps].
    [fringing false] has the strict limit, [fringing true] the relaxed one. *)
Definition reject_winding_killing_gaps (fringing : bool -> M -> evaluation) (l : list (M * dbl))
  : outcome (list (M * dbl)) :=
  match l with
  | [] => Ok []
  | _ =>
      kept <- keep_valid (fringing false) l ;;
      match kept with [] => keep_valid (fringing true) l | _ => Ok kept end
  end.

(** [vector.resize(n)] when the vector is longer than [n]. *)
Definition cut {A : Type} (pruning : bool) (n : nat) (l : list A) : list A :=
  if pruning && (n <? List.length l)%nat then firstn n l else l.

(** ** What the adviser measures *)
Record physics : Type := mk_physics {
  area_product : Q -> M -> evaluation;   (* the saturation margin in force, the candidate *)
  energy_stored : Q -> M -> evaluation;
  size_turns : Q -> M -> sizing;
  saturation : Q -> M -> evaluation;
  post_gap_fringing : bool -> M -> evaluation;
  cost : M -> evaluation;
  dimensions : M -> evaluation;
  losses : M -> evaluation;
  temperature : M -> evaluation;
  minimum_impedance : M -> evaluation;
  turn_count : M -> evaluation;
  inductance : M -> evaluation;
  early_fringing : M -> evaluation;
  size_gap : M -> sizing;
  ferrite_materials : outcome (M -> list M);
  impedance_materials : outcome (M -> list M);
  powder_materials : outcome (M -> list M);
  cannot_score_losses : M -> bool;
  is_toroidal : M -> bool;
  suits_differential_choke : M -> bool;
  shape_name : M -> string;
  correct_windings : M -> outcome M;
  add_alternatives : M -> outcome M;
  post_process : M -> option D;          (* None: any std::exception *)
  tag_relaxed : M -> M;                  (* " [SATURATION MARGIN RELAXED TO 1.0]" *)
  differential_choke : bool;             (* the topology of the inputs *)
  powder_wanted : bool                   (* should_include_powder || use_toroidal_cores *)
}.
Variable ph : physics.

(** The settings the adviser reads. *)
Record options : Type := mk_options {
  pruning : bool;            (* core_adviser_enable_intermediate_pruning *)
  margin : Q;                (* core_adviser_saturation_margin *)
  temperature_filter : bool; (* core_adviser_enable_temperature_filter *)
  include_stacks : bool;     (* core_adviser_include_stacks *)
  unique_shapes : bool;      (* CoreAdviser::set_unique_core_shapes *)
  maximum_after_filtering : nat
}.

(** The weights map of the call: [operator[]] on a missing filter gives 0 in the
    available-cores pipelines, [userWeight] gives 1 in the others
    (src/advisers/CoreAdviserPipeline.cpp:703-706). *)
Definition weights := bucket -> option Q.
Definition weight_or_zero (w : weights) (b : bucket) : Q :=
  match w b with Some q => q | None => 0 end.
Definition weight_or_one (w : weights) (b : bucket) : Q :=
  match w b with Some q => q | None => 1 end.

(** src/advisers/CoreAdviserPipeline.cpp:315-358 [post_process_and_cut]: the
    first [n] candidates, in order, that survive; [used] are the shapes already
    taken. *)
Fixpoint post_process_and_cut (unique alternatives : bool) (n : nat) (used : list string)
  (l : list (M * dbl)) : outcome (list (D * dbl)) :=
  match l with
  | [] => Ok []
  | (m, s) :: t =>
      match n with
      | O => Ok []
      | S n' =>
          if unique && existsb (String.eqb (shape_name ph m)) used
          then post_process_and_cut unique alternatives n used t
          else
            m1 <- correct_windings ph m ;;
            m2 <- (if alternatives then add_alternatives ph m1 else Ok m1) ;;
            match post_process ph m2 with
            | None => post_process_and_cut unique alternatives n used t
            | Some d =>
                r <- post_process_and_cut unique alternatives n'
                       (if unique then shape_name ph m :: used else used) t ;;
                Ok ((d, s) :: r)
            end
      end
  end.

(** ** Pipelines *)

(** [std::max<size_t>(maximumNumberResults * 5, k)]. *)
Definition cap (n k : nat) : nat := Nat.max (n * 5) k.

(** The part common to the first try and the retries of
    src/advisers/CoreAdviserPipeline.cpp:383-405 and 460-464, 476-480: area
    product, stored energy, turns, saturation.  [limit] is the cut after the
    area product. *)
Definition up_to_saturation (mg : Q) (limit : option nat) (l : list (M * dbl))
  : outcome (list (M * dbl)) :=
  l <- gate_filter (area_product ph mg) false EFFICIENCY 1 l ;;
  let l := match limit with Some k => cut true k l | None => l end in
  l <- gate_filter (energy_stored ph mg) true EFFICIENCY 1 l ;;
  l <- size_all (size_turns ph mg) l ;;
  saturation_filter (saturation ph mg) l.

(** Lines 410-444 and 488-505: fringing, cost, dimensions, losses, temperature. *)
Definition from_saturation (o : options) (w : weights) (limit : option nat) (l : list (M * dbl))
  : outcome (list (M * dbl)) :=
  l <- reject_winding_killing_gaps (post_gap_fringing ph) l ;;
  l <- gate_filter (cost ph) false COST (weight_or_zero w COST) l ;;
  l <- gate_filter (dimensions ph) false DIMENSIONS (weight_or_zero w DIMENSIONS) l ;;
  let l := match limit with Some k => cut true k l | None => l end in
  l <- losses_filter (losses ph) (cannot_score_losses ph) (weight_or_zero w EFFICIENCY) l ;;
  if temperature_filter o
  then skippable_filter (temperature ph) EFFICIENCY (weight_or_zero w EFFICIENCY) l
  else Ok l.

(** src/advisers/CoreAdviserPipeline.cpp:360-519
    [filter_available_cores_power_application], up to the final cut. *)
Definition power_survivors (o : options) (w : weights) (after n : nat) (l : list (M * dbl))
  : outcome (list (M * dbl)) :=
  l1 <- up_to_saturation (margin o) (if pruning o then Some after else None) l ;;
  l2 <- from_saturation o w (if pruning o then Some (cap n 50) else None) l1 ;;
  match l2 with
  | _ :: _ => Ok l2
  | [] =>
      (* retry, lines 454-514 *)
      l3 <- up_to_saturation (margin o) None l ;;
      l4 <- match l3 with
            | [] => if Qlt_bool 1 (margin o)
                    then (r <- up_to_saturation 1 None l ;; Ok (r, match r with [] => false | _ => true end))
                    else Ok (l3, false)
            | _ => Ok (l3, false)
            end ;;
      l5 <- from_saturation o w None (fst l4) ;;
      Ok (if snd l4 then map (fun x => (tag_relaxed ph (fst x), snd x)) l5 else l5)
  end.
Definition power_available (o : options) (w : weights) (after n : nat) (l : list (M * dbl))
  : outcome (list (D * dbl)) :=
  r <- power_survivors o w after n l ;;
  post_process_and_cut (unique_shapes o) false n [] r.

(** Lines 626-648 and 963-978: when the losses filter rejects all candidates
    they all go on without a score. *)
Definition losses_or_all (weight : Q) (l : list (M * dbl)) : outcome (list (M * dbl)) :=
  r <- losses_filter (losses ph) (cannot_score_losses ph) weight l ;;
  Ok (match r with [] => l | _ => r end).

(** src/advisers/CoreAdviserPipeline.cpp:521-655
    [filter_available_cores_suppression_application]. *)
Definition suppression_survivors (o : options) (w : weights) (n : nat) (l : list (M * dbl))
  : outcome (list (M * dbl)) :=
  let l := if differential_choke ph
           then filter (fun x => suits_differential_choke ph (fst x)) l else l in
  l <- skippable_filter (minimum_impedance ph) EFFICIENCY (1 # 1000) l ;;
  l <- turn_count_filter (turn_count ph) 1 l ;;
  let l := cut true (cap n 20) l in
  l <- saturation_filter (saturation ph (margin o)) l ;;
  l <- gate_filter (cost ph) false COST (weight_or_zero w COST) l ;;
  l <- gate_filter (dimensions ph) false DIMENSIONS (weight_or_zero w DIMENSIONS) l ;;
  l <- gate_filter (inductance ph) true EFFICIENCY (weight_or_zero w EFFICIENCY) l ;;
  losses_or_all (weight_or_zero w EFFICIENCY) l.
Definition suppression_available (o : options) (w : weights) (n : nat) (l : list (M * dbl))
  : outcome (list (D * dbl)) :=
  r <- suppression_survivors o w n l ;;
  post_process_and_cut (unique_shapes o) false n [] r.

(** src/advisers/CoreAdviserMaterials.cpp:110-122 and 154-185: each candidate is
    replaced by its copies in the chosen materials, with its score. *)
Definition fan_out (copies : M -> list M) (l : list (M * dbl)) : list (M * dbl) :=
  flat_map (fun x => map (fun m => (m, snd x)) (copies (fst x))) l.

(** src/advisers/CoreAdviserPipeline.cpp:732-794: the gapped cores. *)
Definition ferrite_stage (o : options) (w : weights) (n : nat) (l : list (M * dbl))
  : outcome (list (M * dbl)) :=
  match l with
  | [] => Ok []
  | _ =>
  l <- size_all (size_gap ph) l ;;
  l <- gate_filter (early_fringing ph) true EFFICIENCY (weight_or_one w EFFICIENCY) l ;;
  l <- gate_filter (dimensions ph) false DIMENSIONS (weight_or_one w DIMENSIONS) l ;;
  f <- ferrite_materials ph ;;
  l <- size_all (size_turns ph (margin o)) (fan_out f l) ;;
  l <- reject_winding_killing_gaps (post_gap_fringing ph) l ;;
  l <- gate_filter (inductance ph) true EFFICIENCY ((1 # 10) * weight_or_one w EFFICIENCY) l ;;
  l <- saturation_filter (saturation ph (margin o)) l ;;
  l <- losses_filter (losses ph) (cannot_score_losses ph) (weight_or_one w EFFICIENCY)
         (cut (pruning o) (cap n 50) l) ;;
  if temperature_filter o
  then skippable_filter (temperature ph) EFFICIENCY (weight_or_one w EFFICIENCY) l
  else Ok l
  end.
(** Lines 799-880: the toroidal cores. *)
Definition powder_stage (o : options) (w : weights) (n : nat) (l : list (M * dbl))
  : outcome (list (M * dbl)) :=
  match l with
  | [] => Ok []
  | _ =>
  f <- powder_materials ph ;;
  l <- gate_filter (energy_stored ph (margin o)) true EFFICIENCY 1 (fan_out f l) ;;
  l <- gate_filter (dimensions ph) false DIMENSIONS (weight_or_one w DIMENSIONS) l ;;
  l <- size_all (size_turns ph (margin o)) (cut (pruning o) (cap n 50) l) ;;
  l <- gate_filter (inductance ph) true EFFICIENCY ((1 # 10) * weight_or_one w EFFICIENCY) l ;;
  l <- saturation_filter (saturation ph (margin o)) l ;;
  l <- losses_filter (losses ph) (cannot_score_losses ph) (weight_or_one w EFFICIENCY)
         (cut (pruning o) (cap n 50) l) ;;
  if temperature_filter o
  then skippable_filter (temperature ph) EFFICIENCY (weight_or_one w EFFICIENCY) l
  else Ok l
  end.
(** src/advisers/CoreAdviserPipeline.cpp:657-912
    [filter_standard_cores_power_application]. *)
Definition standard_survivors (o : options) (w : weights) (after n : nat) (l : list (M * dbl))
  : outcome (list (M * dbl)) :=
  l <- gate_filter (area_product ph (margin o)) false EFFICIENCY 1 l ;;
  ferrite <- ferrite_stage o w n
    (cut (pruning o) after (filter (fun x => negb (is_toroidal ph (fst x))) l)) ;;
  powder <- (if powder_wanted ph
             then powder_stage o w n
                    (cut (pruning o) after (filter (fun x => is_toroidal ph (fst x)) l))
             else Ok []) ;;
  Ok (ferrite ++ powder)%list.
Definition standard_power (o : options) (w : weights) (after n : nat) (l : list (M * dbl))
  : outcome (list (D * dbl)) :=
  r <- standard_survivors o w after n l ;;
  post_process_and_cut (unique_shapes o) true n [] r.

(** src/advisers/CoreAdviserPipeline.cpp:914-993
    [filter_standard_cores_interference_suppression_application]. *)
Definition standard_suppression (o : options) (w : weights) (n : nat) (l : list (M * dbl))
  : outcome (list (D * dbl)) :=
  f <- impedance_materials ph ;;
  l <- size_all (size_turns ph (margin o)) (fan_out f l) ;;
  l <- skippable_filter (minimum_impedance ph) EFFICIENCY (1 # 1000) l ;;
  l <- gate_filter (cost ph) false COST (weight_or_one w COST) l ;;
  l <- gate_filter (dimensions ph) false DIMENSIONS (weight_or_one w DIMENSIONS) l ;;
  l <- gate_filter (inductance ph) true EFFICIENCY (weight_or_one w EFFICIENCY) l ;;
  l <- losses_or_all (weight_or_one w EFFICIENCY) l ;;
  l <- turn_count_filter (turn_count ph) 1 l ;;
  post_process_and_cut (unique_shapes o) true n [] l.

(** ** Entry points *)

(** The catalog's cores.  Of a core the dataset stage writes the name and the
    number of stacks; [body] stands for the rest, and the processed description
    (which the stage also refreshes) is left out. *)
Record core : Type := mk_core {
  core_name : string;
  number_stacks : option nat;
  body : nat
}.
(** The tests on a core of the dataset stages and the magnetic built on it. *)
Record dataset_rules : Type := mk_rules {
  eligible : core -> bool;       (* CoreAdviserDataset.cpp:223-291, all its `continue`s *)
  stackable : core -> bool;      (* lines 458-473: type, height, shape family, gap *)
  magnetic_of : core -> M
}.
Variable rules : dataset_rules.

(** src/Defaults.h:30 [coreAdviserMaximumNumberStacks]. *)
Definition maximum_stacks : nat := 4.
(** [std::regex_replace(name, std::regex(" [0-9] stacks"), "")]: drops every
    occurrence; [skip] is what is left of the occurrence being dropped. *)
Definition is_digit (c : ascii) : bool :=
  (48 <=? nat_of_ascii c)%nat && (nat_of_ascii c <=? 57)%nat.
Definition to_string (n : nat) : string := NilEmpty.string_of_uint (Nat.to_uint n).
Definition starts_stacks (s : string) : bool :=
  match s with
  | String c (String d r) => Ascii.eqb c " " && is_digit d && prefix " stacks" r
  | _ => false
  end.
Fixpoint strip_from (skip : nat) (s : string) : string :=
  match s with
  | EmptyString => EmptyString
  | String c r =>
      match skip with
      | S k => strip_from k r
      | O => if starts_stacks s then strip_from 8 r else String c (strip_from 0 r)
      end
  end.
Definition strip_stacks (s : string) : string := strip_from 0 s.

(** src/advisers/CoreAdviserDataset.cpp:206-321 [create_magnetic_dataset] from
    cores, without stacks (the only way it is called with cores). *)
Definition dataset (cores : list core) : list (M * dbl) :=
  map (fun c => (magnetic_of rules c, Fin 0)) (filter (eligible rules) cores).

(** src/advisers/CoreAdviserDataset.cpp:444-494
    [expand_magnetic_dataset_with_stacks]: the loop goes over the caller's cores
    by reference; gives the new candidates and the core as it is left. *)
Definition stacked (c : core) (k : nat) : core :=
  mk_core (strip_stacks (core_name c) ++ " " ++ to_string k ++ " stacks")%string (Some k) (body c).
Fixpoint stack_loop (i : nat) (c : core) : list (M * dbl) * core :=
  match i with
  | O => ([], c)
  | S j =>
      let k := (maximum_stacks - j)%nat in
      let c' := stacked c k in
      let r := stack_loop j c' in
      ((magnetic_of rules c', Fin 0) :: fst r, snd r)
  end.
Fixpoint stacks_of (cores : list core) : list (M * dbl) * list core :=
  match cores with
  | [] => ([], [])
  | c :: t =>
      let r := stacks_of t in
      if stackable rules c
      then let x := stack_loop (maximum_stacks - 1) c in
           ((fst x ++ fst r)%list, snd x :: snd r)
      else (fst r, c :: snd r)
  end.

(** src/advisers/CoreAdviser.cpp:357-389 [get_advised_core] over cores: the
    advice, and the caller's cores as the call leaves them. *)
Definition advise_cores (power : bool) (o : options) (w : weights) (cores : list core) (n : nat)
  : outcome (list (D * dbl) * list core) :=
  let candidates := dataset cores in
  if power then
    r <- power_available o w (maximum_after_filtering o) n candidates ;;
    if (n <=? List.length r)%nat then Ok (r, cores)
    else
      let x := if include_stacks o then stacks_of cores else ([], cores) in
      let more := (candidates ++ fst x)%list in
      r2 <- power_available o w (List.length more) n more ;;
      Ok (r2, snd x)
  else
    r <- suppression_available o w n candidates ;; Ok (r, cores).

(** src/advisers/CoreAdviser.cpp:322-355 [get_advised_core] in batches of
    [size] cores; each batch is a copy of the caller's cores. *)
Fixpoint batches (fuel : nat) (size : nat) (cores : list core) : outcome (list (list core)) :=
  match cores with
  | [] => Ok []
  | _ =>
      match fuel with
      | O => OutOfFuel
      | S f => r <- batches f size (skipn size cores) ;; Ok (firstn size cores :: r)
      end
  end.
Fixpoint advise_each (power : bool) (o : options) (w : weights) (n : nat) (bs : list (list core))
  : outcome (list (D * dbl)) :=
  match bs with
  | [] => Ok []
  | b :: t =>
      r <- advise_cores power o w b n ;;
      rest <- advise_each power o w n t ;;
      Ok (fst r ++ rest)%list
  end.
Definition advise_in_batches (fuel : nat) (power : bool) (o : options) (w : weights)
  (cores : list core) (n size : nat) : outcome (list (D * dbl)) :=
  bs <- batches fuel size cores ;;
  r <- advise_each power o w n bs ;;
  r <- sort r ;;
  Ok (firstn n r).

End Adviser.
