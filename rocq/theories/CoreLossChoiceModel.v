(** * Core losses: materials, choice of the model and the dispatcher

    Models src/physical_models/CoreLosses.cpp: the methods a material offers, the
    choice of the loss model, the models of the manufacturers, the correction for
    a direct bias, the drums of two materials, and the two entry points
    [calculate_core_losses] and [get_core_volumetric_losses]; over the real
    numbers, with the conventions of CoreLossModel.v.

    Simplified throughout: the names of the methods are matched by the method
    itself ([to_string] and [toupper] of CoreLosses.cpp:402-414 are not modelled);
    a map is the list of its entries in the order it is visited. *)
From Coq Require Import Reals List Lra Lia ZArith String.
From Verif Require Import Base SizingModel CoreLossModel.
Import ListNotations.
Local Open Scope R_scope.
Local Open Scope outcome_scope.

(** ** Materials *)

(** src/Models.h:35-46 [CoreLossesModels]. *)
Inductive model :=
| Proprietary | Steinmetz | Igse | Cigse | Barg | Roshen | Albach | Nse | Mse | LossFactor.
Definition model_eq_dec (x y : model) : {x = y} + {x <> y}.
Proof. decide equality. Defined.

(** [VolumetricCoreLossesMethodType] of the schema. *)
Inductive kind := KSteinmetz | KRoshen | KMicrometals | KMagnetics | KPoco | KTdg | KLossFactor.
Definition kind_eq_dec (x y : kind) : {x = y} + {x <> y}.
Proof. decide equality. Defined.

(** [CoreLossesMethodData] of the schema: the method and the fields the models
    read ([factors]: the loss factor by frequency). *)
Record method_data := {
  method : kind;
  ranges_ : option (list steinmetz);
  a_ : option R; b_ : option R; c_ : option R; d_ : option R;
  factors : option (list (R * R)) }.

(** An entry of the volumetric losses: measured points or a method; an entry of
    the mass losses: points or the method of Magnetec. *)
Inductive entry := Points | Data (d : method_data).
Inductive mass_entry := MassPoints | Magnetec.

(** [CoreMaterial]: its losses by variant. *)
Record material := {
  material_name : string;
  volumetric : list (string * list entry);
  massic : option (list (string * list mass_entry)) }.

(** ** The methods of a material *)

(** CoreLosses.cpp:48-59. *)
Definition kinds_of (l : list entry) : list kind :=
  flat_map (fun x => match x with Points => [] | Data d => [method d] end) l.
Definition declared (m : material) : list kind := flat_map (fun v => kinds_of (snd v)) (volumetric m).
Definition has (k : kind) (l : list kind) : bool := if in_dec kind_eq_dec k l then true else false.

(** CoreLosses.cpp:79-96. *)
Definition is_magnetec (x : mass_entry) : bool := match x with Magnetec => true | MassPoints => false end.
Definition has_magnetec (m : material) : bool :=
  match massic m with Some l => existsb (fun v => existsb is_magnetec (snd v)) l | None => false end.

(** CoreLosses.cpp:34-98 [get_methods]. *)
Definition methods (m : material) : list model :=
  let l := declared m in
  ((if has KSteinmetz l then [Steinmetz; Igse; Cigse; Barg; Albach; Mse] else []) ++
   (if has KRoshen l then [Roshen] else []) ++
   (if (has KMagnetics l || has KMicrometals l || has KPoco l || has KTdg l)%bool then [Proprietary] else []) ++
   (if has KLossFactor l then [LossFactor] else []) ++
   (if has_magnetec m then [Proprietary] else []))%list.

(** CoreLosses.cpp:400-421 [get_method_data]: only the variant called default. *)
Fixpoint first_data (k : kind) (l : list entry) : option method_data :=
  match l with
  | [] => None
  | Points :: rest => first_data k rest
  | Data d :: rest => if kind_eq_dec (method d) k then Some d else first_data k rest
  end.
Fixpoint default_data (k : kind) (l : list (string * list entry)) : outcome method_data :=
  match l with
  | [] => Throw "MaterialException"
  | (v, x) :: rest =>
      if String.eqb v "default" then
        match first_data k x with Some d => Ok d | None => default_data k rest end
      else default_data k rest
  end.
Definition method_data_of (m : material) (k : kind) : outcome method_data := default_data k (volumetric m).

(** [std::optional::value]. *)
Definition value_of {A : Type} (x : option A) : outcome A :=
  match x with Some v => Ok v | None => Throw "bad_optional_access" end.

(** CoreLosses.cpp:436-437: the ranges of the Steinmetz method. *)
Definition ranges_of (m : material) : outcome (list steinmetz) :=
  d <- method_data_of m KSteinmetz ;; value_of (ranges_ d).

(** ** Choice of the model *)

(** Utils.cpp:699-725 [find_core_material_by_name]: by its name only (the search
    by commercial name and the encoding of the micro sign are not modelled). *)
Fixpoint find_material (database : list material) (name : string) : outcome material :=
  match database with
  | [] => Throw "CoreMaterialNotFoundException"
  | m :: rest => if String.eqb (material_name m) name then Ok m else find_material rest name
  end.

(** CoreLosses.cpp:38-44: the string "dummy" is taken for the data of a material. *)
Definition methods_of_name (database : list material) (name : string) : outcome (list model) :=
  if String.eqb name "dummy" then Throw "bad_variant_access"
  else m <- find_material database name ;; Ok (methods m).

(** Settings.cpp:884-886 [set_core_losses_preferred_model_name]. *)
Definition preference (preferred : model) : list model :=
  [preferred; Proprietary; LossFactor; Steinmetz; Roshen].

(** CoreLosses.cpp:100-116 [get_core_losses_model]. *)
Definition chosen_model (database : list material) (models : list model) (name : string) : outcome model :=
  available <- methods_of_name database name ;;
  match find (fun x => if in_dec model_eq_dec x available then true else false) models with
  | Some x => Ok x
  | None => Throw "ModelNotAvailableException"
  end.

(** ** The models of the manufacturers *)

(** CoreLosses.cpp:2366-2384 [get_proprietary_volumetric_method]: in all variants. *)
Definition is_proprietary (k : kind) : bool :=
  match k with KMicrometals | KMagnetics | KPoco | KTdg => true | _ => false end.
Definition proprietary_kind (m : material) : option kind := find is_proprietary (declared m).

(** CoreLosses.cpp:2432: the first term of Micrometals.  With no flux density the
    three quotients are infinite, their sum is infinite when they have one sign
    and NaN otherwise, and the frequency over it is zero or NaN. *)
Definition hyperbola (f a b c x : R) : figure :=
  if Req_EM_T x 0 then
    if Rlt_dec 0 a then if Rlt_dec 0 b then if Rlt_dec 0 c then Some 0 else None else None
    else if Rlt_dec a 0 then if Rlt_dec b 0 then if Rlt_dec c 0 then Some 0 else None else None else None
  else fdiv (Some f) (fadd (fadd (fdiv (Some a) (cpow x 3)) (fdiv (Some b) (cpow x (23 / 10))))
                           (fdiv (Some c) (cpow x (165 / 100)))).

Definition micrometals (f ac a b c d : R) : figure :=
  fadd (hyperbola f a b c ac) (fmul (fmul (Some d) (cpow ac 2)) (cpow f 2)).

(** CoreLosses.cpp:2435-2446. *)
Definition magnetics (f main ac a b c : R) : figure :=
  if Rlt_dec 2 b then fmul (fmul (fmul (Some a) (cpow main (b - 2))) (cpow f c)) (cpow ac 2)
  else fmul (fmul (Some a) (cpow ac b)) (cpow f c).

(** CoreLosses.cpp:2447-2453 and 2455-2462. *)
Definition poco (f ac a b c : R) : figure :=
  fmul (Some 1000) (fadd (fmul (fmul (Some a) (cpow (ac * 10) b)) (Some (f / 1000)))
                         (fmul (Some c) (cpow (ac * 10 * f / 1000) 2))).
Definition tdg (f ac a b c d : R) : figure :=
  fmul (fmul (Some 1000) (cpow (ac * 10) a)) (fadd (Some (b * f / 1000)) (fmul (Some c) (cpow (f / 1000) d))).

(** CoreLosses.cpp:2404-2470 [CoreLossesProprietaryModel::get_core_volumetric_losses]. *)
Definition proprietary_losses (m : material) (e : excitation) : outcome figure :=
  f <- switching_frequency e ;;
  let main := peak e - offset e in
  let ac := Rabs (peak_at e f - offset e) in
  match proprietary_kind m with
  | Some KMicrometals =>
      x <- method_data_of m KMicrometals ;; a <- value_of (a_ x) ;; b <- value_of (b_ x) ;;
      c <- value_of (c_ x) ;; d <- value_of (d_ x) ;; Ok (micrometals f ac a b c d)
  | Some KMagnetics =>
      x <- method_data_of m KMagnetics ;; a <- value_of (a_ x) ;; b <- value_of (b_ x) ;;
      c <- value_of (c_ x) ;; Ok (magnetics f main ac a b c)
  | Some KPoco =>
      x <- method_data_of m KPoco ;; a <- value_of (a_ x) ;; b <- value_of (b_ x) ;;
      c <- value_of (c_ x) ;; Ok (poco f ac a b c)
  | Some KTdg =>
      x <- method_data_of m KTdg ;; a <- value_of (a_ x) ;; b <- value_of (b_ x) ;;
      c <- value_of (c_ x) ;; d <- value_of (d_ x) ;; Ok (tdg f ac a b c d)
  | _ => Throw "MaterialException"
  end.

(** CoreLosses.cpp:2508-2527 [get_core_mass_losses]. *)
Definition magnetec (f ac : R) : figure :=
  fmul (fmul (Some 80) (cpow (f / 100000) (18 / 10))) (cpow (ac * 2 / (3 / 10)) 2).
Definition proprietary_mass_losses (m : material) (e : excitation) : outcome figure :=
  f <- switching_frequency e ;;
  if has_magnetec m then Ok (magnetec f (peak e - offset e)) else Throw "MaterialException".

(** ** Cores and results *)

(** The parts of a [Core] read here.  [split]: the shape constants of the two
    materials of a semi-shielded drum (CorePiece.cpp:2361-2364), [None] for the
    other families; [shell]: the name of the material of its coating when the
    coating is of magnetic epoxy and has one. *)
Record core := {
  split : option (R * R * R * R);
  made_of : material;
  effective_volume : R;
  weight : R;
  shell : option string }.

(** The numbers of a [CoreLossesOutput]. *)
Record output := {
  core_losses : figure;
  volumetric_losses : option figure;
  mass_losses : option figure;
  hysteresis_losses : option figure;
  eddy_losses : option figure;
  method_used : string }.

(** The excitation of a section: CoreLosses.cpp:219-240.  The rms value is not
    read by any model here. *)
Definition excitation_for (ratio : R) (e : excitation) : excitation :=
  {| frequency := frequency e; current_points := current_points e; current_harmonics := current_harmonics e;
     peak := peak e * ratio;
     offset := if Req_EM_T (offset e) 0 then offset e else offset e * ratio;
     peak_to_peak := peak_to_peak e * ratio;
     harmonics := harmonics e; samples := samples e |}.

Section Dispatcher.
(** The number of points of sampled waveforms of the settings, the spline of
    Barg, the hysteresis and eddy loss densities by Roshen in a core, the core
    of its dummy ring for a material, the total losses by loss factor in a core
    and those with one henry in a material; the permeability of a material at a
    temperature and field, and whether it depends on the field. *)
Variable points : nat.
Variable spline : R -> R.
Variable roshen : core -> excitation -> R -> outcome (figure * figure).
Variable ring : material -> core.
Variable loss_factor : core -> excitation -> R -> outcome figure.
Variable loss_factor_unit : material -> excitation -> R -> outcome figure.
Variable permeability : material -> R -> R -> figure.
Variable biased : material -> bool.

(** [get_core_volumetric_losses] of each model (no datum is loaded in the models
    the dispatcher makes, CoreLosses.h:572-585). *)
Definition volumetric_by (m : model) (x : material) (e : excitation) (t : R) : outcome figure :=
  match m with
  | Proprietary => proprietary_losses x e
  | Roshen => h <- roshen (ring x) e t ;; Ok (fadd (fst h) (snd h))
  | LossFactor => loss_factor_unit x e t
  | Steinmetz => f <- switching_frequency e ;; r <- ranges_of x ;; steinmetz_losses None r e t
  | Igse => f <- switching_frequency e ;; r <- ranges_of x ;; igse_losses points None r e t
  | Cigse => f <- switching_frequency e ;; r <- ranges_of x ;; cigse_losses points None r e t
  | Albach => f <- switching_frequency e ;; r <- ranges_of x ;; albach_losses None r e t
  | Mse => f <- switching_frequency e ;; r <- ranges_of x ;; mse_losses None r e t
  | Nse => f <- switching_frequency e ;; r <- ranges_of x ;; nse_losses points None r e t
  | Barg => f <- switching_frequency e ;; r <- ranges_of x ;; barg_losses spline None r e t
  end.

Definition name_of (m : model) : string :=
  match m with
  | Proprietary => "Proprietary" | Steinmetz => "Steinmetz" | Igse => "iGSE" | Cigse => "ciGSE"
  | Barg => "Barg" | Roshen => "Roshen" | Albach => "Albach" | Nse => "NSE" | Mse => "MSE"
  | LossFactor => "Loss Factor"
  end%string.

(** CoreLosses.h:96-106 [usesVolumetricLosses]. *)
Definition uses_volumetric (x : material) : outcome bool :=
  match volumetric x with
  | _ :: _ => Ok true
  | [] => match massic x with Some _ => Ok false | None => Throw "runtime_error" end
  end.

(** [get_core_losses] of each model: CoreLosses.cpp:810-842 (the Steinmetz family
    and the manufacturers), 1840-1866 (Roshen), 2633-2670 (loss factor). *)
Definition losses_by (m : model) (c : core) (e : excitation) (t : R) : outcome output :=
  match m with
  | Roshen =>
      h <- roshen c e t ;;
      let v := fadd (fst h) (snd h) in
      let total x := fmul x (Some (effective_volume c)) in
      Ok {| core_losses := total v; volumetric_losses := Some v; mass_losses := None;
            hysteresis_losses := Some (total (fst h)); eddy_losses := Some (total (snd h));
            method_used := name_of m |}
  | LossFactor =>
      w <- loss_factor c e t ;;
      Ok {| core_losses := w; volumetric_losses := Some (fdiv w (Some (effective_volume c))); mass_losses := None;
            hysteresis_losses := None; eddy_losses := None; method_used := name_of m |}
  | _ =>
      by_volume <- uses_volumetric (made_of c) ;;
      if by_volume then
        v <- volumetric_by m (made_of c) e t ;;
        Ok {| core_losses := fmul v (Some (effective_volume c)); volumetric_losses := Some v; mass_losses := None;
              hysteresis_losses := None; eddy_losses := None; method_used := name_of m |}
      else
        v <- (match m with
              | Proprietary => proprietary_mass_losses (made_of c) e
              | _ => Throw "runtime_error"
              end) ;;
        Ok {| core_losses := fmul v (Some (weight c)); volumetric_losses := None; mass_losses := Some v;
              hysteresis_losses := None; eddy_losses := None; method_used := name_of m |}
  end.

(** Constants.h:15. *)
Definition vacuum_permeability : R := 125663706212 / 100000000000000000.

(** CoreLosses.cpp:127-166 [calculate_dple_factor].  Simplified: the
    permeability without bias is finite. *)
Definition bias_factor (x : material) (e : excitation) (t : R) : R :=
  if Rlt_dec (Rabs (offset e)) (1 / 1000000) then 1
  else if biased x then
    match permeability x t 0 with
    | Some zero =>
        if Rle_dec zero 0 then 1
        else
          match permeability x t (Rabs (offset e) / (vacuum_permeability * zero)) with
          | Some bias =>
              if Rle_dec bias 0 then 1
              else
                let q := zero / bias in
                let q := if Rlt_dec q 1 then 1 else q in
                if Rlt_dec 10 q then 10 else q
          | None => 1
          end
    | None => 1
    end
  else 1.

(** CoreLosses.cpp:310-322 [CoreLosses::get_core_volumetric_losses]. *)
Definition volumetric_density (database : list material) (models : list model) (x : material)
    (e : excitation) (t : R) : outcome figure :=
  m <- chosen_model database models (material_name x) ;;
  v <- volumetric_by m x e t ;;
  match m with
  | Roshen => Ok v
  | _ => Ok (fmul v (Some (bias_factor x e t)))
  end.

(** CoreLosses.cpp:194-266 [calculate_semishielded_core_losses].  Simplified: the
    constants of the two materials are positive. *)
Definition semishielded (database : list material) (models : list model) (c : core) (s : R * R * R * R)
    (e : excitation) (t : R) : outcome output :=
  let '(core1, core2, shell1, shell2) := s in
  let core_area := core1 / core2 in
  let core_volume := core1 ^ 3 / core2 ^ 2 in
  let shell_area := shell1 / shell2 in
  let shell_volume := shell1 ^ 3 / shell2 ^ 2 in
  let whole_area := (core1 + shell1) / (core2 + shell2) in
  drum <- volumetric_density database models (made_of c) (excitation_for (whole_area / core_area) e) t ;;
  let total := fmul drum (Some core_volume) in
  let result w name :=
    {| core_losses := w; volumetric_losses := Some (fdiv w (Some (core_volume + shell_volume)));
       mass_losses := None; hysteresis_losses := None; eddy_losses := None; method_used := name |} in
  let without := Ok (result total "SemiShieldedPerMaterialSplit(shellLossesAssumedZero)"%string) in
  match shell c with
  | None => without
  | Some name =>
      x <- find_material database name ;;
      match volumetric x with
      | [] => without
      | _ :: _ =>
          v <- volumetric_density database models x (excitation_for (whole_area / shell_area) e) t ;;
          Ok (result (fadd total (fmul v (Some shell_volume))) "SemiShieldedPerMaterialSplit"%string)
      end
  end.

(** CoreLosses.cpp:268-308 [calculate_core_losses]. *)
Definition scaled (k : R) (o : output) : output :=
  {| core_losses := fmul (core_losses o) (Some k);
     volumetric_losses := option_map (fun v => fmul v (Some k)) (volumetric_losses o);
     mass_losses := option_map (fun v => fmul v (Some k)) (mass_losses o);
     hysteresis_losses := hysteresis_losses o; eddy_losses := eddy_losses o; method_used := method_used o |}.
Definition calculate_losses (database : list material) (models : list model) (c : core) (e : excitation) (t : R)
  : outcome output :=
  match split c with
  | Some s => semishielded database models c s e t
  | None =>
      m <- chosen_model database models (material_name (made_of c)) ;;
      o <- losses_by m c e t ;;
      let k := bias_factor (made_of c) e t in
      let o := if Rlt_dec 1 k then scaled k o else o in
      match core_losses o with Some _ => Ok o | None => Throw "InvalidInputException" end
  end.
End Dispatcher.
