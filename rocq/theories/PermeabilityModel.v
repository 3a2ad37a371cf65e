(** * Initial permeability

    Models src/physical_models/InitialPermeability.cpp and the caches of
    InitialPermeability.h:22-24, over the real numbers.

    Simplified throughout: doubles are real numbers.  A value of the formulas that
    is not finite is refused as NaN; the code refuses NaN and returns infinities.
    [std::sort] is taken to keep the order of equal keys, which it does not
    promise.  The caches, which are those of one thread, hold the points from which
    the code makes its interpolators. *)
From Coq Require Import Reals List String Ascii Bool Lra Lia.
From Verif Require Import Base SizingModel CoreLossModel.
From Verif Require LossFactorModel.
Import ListNotations.
Local Open Scope R_scope.
Local Open Scope outcome_scope.

(** ** The data of a material *)

(** The factors of MAS [InitialPermeabilitModifier]. *)
Record temperature_factor := { ta : R; tb : option R; tc : option R; td : option R; te : option R }.
Record frequency_factor := { fa : R; fb : R; fc : R; fd : R; fe : option R }.
Record bias_factor := { ba : R; bb : R; bc : R; bd : option R }.
Record flux_factor := { xa : R; xb : R; xc : R; xd : R; xe : R; xf : R }.
Inductive maker := Magnetics | Micrometals | Poco | Tdg | FairRite.
Record modifier := {
  method : option maker;
  by_temperature : option temperature_factor;
  by_frequency : option frequency_factor;
  by_bias : option bias_factor;
  by_flux : option flux_factor }.

(** MAS [PermeabilityPoint]; the modifiers, if any, in the order of their keys. *)
Record point := {
  value : R;
  at_temperature : option R;
  at_frequency : option R;
  at_bias : option R;
  modifiers : option (list (string * modifier)) }.

(** MAS [CoreMaterial]: one point with formulas, or measured points. *)
Inductive data := Formula (p : point) | Measured (l : list point).
Record material := { name : string; initial : data; curie : option R }.

(** ** The modifier of a shape family *)

(** InitialPermeability.cpp:55-66 on one key: the parts between slashes, without
    the blanks around them and in capitals.  The part after a final slash, which
    [getline] does not give, is empty and is no family. *)
Fixpoint parts (s current : string) : list string :=
  match s with
  | EmptyString => [current]
  | String c r => if Ascii.eqb c "/" then current :: parts r "" else parts r (current ++ String c "")
  end.
Definition blank (c : ascii) : bool := Ascii.eqb c " " || Nat.eqb (nat_of_ascii c) 9.
Fixpoint strip_left (s : string) : string :=
  match s with String c r => if blank c then strip_left r else s | EmptyString => s end.
Fixpoint strip_right (s : string) : string :=
  match s with
  | EmptyString => EmptyString
  | String c r => match strip_right r with
                  | EmptyString => if blank c then EmptyString else String c EmptyString
                  | t => String c t
                  end
  end.
Definition capital (c : ascii) : ascii :=
  let n := nat_of_ascii c in
  if (97 <=? n)%nat && (n <=? 122)%nat then ascii_of_nat (n - 32) else c.
Fixpoint capitals (s : string) : string :=
  match s with EmptyString => EmptyString | String c r => String (capital c) (capitals r) end.
Definition families (key : string) : list string :=
  map (fun t => capitals (strip_right (strip_left t))) (parts key "").
Definition names_family (key family : string) : bool := existsb (fun t => String.eqb t family) (families key).

Fixpoint entry_of (key : string) (l : list (string * modifier)) : option modifier :=
  match l with [] => None | (k, v) :: r => if String.eqb k key then Some v else entry_of key r end.
Fixpoint entry_for (family : string) (l : list (string * modifier)) : option modifier :=
  match l with
  | [] => None
  | (k, v) :: r =>
      if String.eqb k "default" then entry_for family r
      else if names_family k family then Some v else entry_for family r
  end.
Definition over {A : Type} (x y : option A) : option A := match x with Some _ => x | None => y end.
Definition overlay (x y : modifier) : modifier :=
  {| method := over (method x) (method y);
     by_temperature := over (by_temperature x) (by_temperature y);
     by_frequency := over (by_frequency x) (by_frequency y);
     by_bias := over (by_bias x) (by_bias y);
     by_flux := over (by_flux x) (by_flux y) |}.

(** InitialPermeability.cpp:37-97 [resolve_modifier].  The family is the name of
    its enumerator in capitals. *)
Definition resolve (l : list (string * modifier)) (family : option string) : outcome modifier :=
  match entry_of "default" l with
  | None => Throw "InvalidInputException"
  | Some d =>
      match family with
      | None => Ok d
      | Some f => match entry_for f l with Some x => Ok (overlay x d) | None => Ok d end
      end
  end.

(** ** Formulas *)

Definition needed (x : option R) : outcome R := match x with Some v => Ok v | None => Throw "bad_optional_access" end.

(** [roundFloat(fabs(H), 3)]: src/support/Utils.cpp:1576-1578. *)
Definition thousandths (x : R) : R := INR (nround (Rabs x * 1000)) / 1000.
Definition oersted (x : R) : R := Rabs x / (7957747 / 100000).

(** InitialPermeability.cpp:283-316, Magnetics. *)
Definition polynomial (a b c d e x : R) : R := a + b * x + c * x ^ 2 + d * x ^ 3 + e * x ^ 4.
Definition magnetics_temperature (f : temperature_factor) (t : R) : outcome figure :=
  b <- needed (tb f) ;; c <- needed (tc f) ;; d <- needed (td f) ;; e <- needed (te f) ;;
  Ok (Some (1 + polynomial (ta f) b c d e t)).
Definition magnetics_frequency (f : frequency_factor) (x : R) : outcome figure :=
  e <- needed (fe f) ;; Ok (Some (1 + polynomial (fa f) (fb f) (fc f) (fd f) e x)).
Definition falling (a b c x : R) : figure := fadd (Some a) (fmul (Some b) (cpow x c)).
Definition magnetics_bias (f : bias_factor) (h : R) : figure :=
  fdiv (Some (1 / 100)) (falling (ba f) (bb f) (bc f) (thousandths h)).

(** InitialPermeability.cpp:318-376, Micrometals: the frequency sets the value. *)
Definition micrometals_frequency (f : frequency_factor) (x : R) : figure :=
  fadd (fdiv (Some 1) (falling (fa f) (fb f) (fc f) x)) (Some (fd f)).
Definition micrometals_temperature (f : temperature_factor) (t : R) : outcome figure :=
  v <- match tb f with
       | Some b =>
           c <- needed (tc f) ;; d <- needed (td f) ;; e <- needed (te f) ;;
           Ok (fdiv (Some (ta f + c * t + e * t ^ 2)) (Some (1 + b * t + d * t ^ 2)))
       | None => Ok (Some (ta f * (t - 20) * (1 / 10000)))
       end ;;
  Ok (fadd (Some 1) (fmul v (Some (1 / 100)))).
Definition micrometals_bias (f : bias_factor) (h : R) : outcome figure :=
  d <- needed (bd f) ;;
  Ok (fmul (fadd (fdiv (Some 1) (falling (ba f) (bb f) (bc f) (thousandths h))) (Some d)) (Some (1 / 100))).
(** The reciprocal of the sum of reciprocals; that of zero is infinite, and of that
    zero (infinities of both signs would be NaN, not told apart here). *)
Definition parallel (x y z : figure) : figure :=
  match x, y, z with
  | Some a, Some b, Some c =>
      if Req_EM_T a 0 then Some 0 else if Req_EM_T b 0 then Some 0 else if Req_EM_T c 0 then Some 0
      else fdiv (Some 1) (Some (1 / a + 1 / b + 1 / c))
  | _, _, _ => None
  end.
Definition micrometals_flux (f : flux_factor) (b : R) : figure :=
  fmul (parallel (falling (xa f) (xb f) (xc f) b) (fmul (Some (xd f)) (cpow b (xe f))) (Some (xf f))) (Some (1 / 100)).

(** InitialPermeability.cpp:378-408, Poco; [x] is over the corner. *)
Definition rolloff (a c d : R) (x : figure) : figure :=
  fmul (fadd (fdiv (Some a) (fadd (Some 1) (match x with Some v => cpow v c | None => None end))) (Some d))
       (Some (1 / 100)).
Definition poco_frequency (f : frequency_factor) (x : R) : figure :=
  rolloff (fa f) (fc f) (fd f) (fdiv (Some x) (Some (fb f))).
Definition poco_bias (f : bias_factor) (h : R) : outcome figure :=
  d <- needed (bd f) ;; Ok (rolloff (ba f) (bc f) d (fdiv (Some (oersted h)) (Some (bb f)))).

(** InitialPermeability.cpp:409-419, TDG, and 420-431, Fair-Rite. *)
Definition tdg_bias (f : bias_factor) (h : R) : figure :=
  fmul (fdiv (Some 1) (falling (ba f) (bb f) (bc f) (oersted h))) (Some (1 / 100)).
Definition fair_rite_temperature (f : temperature_factor) (t : R) : figure := Some (1 + ta f * t * (1 / 100)).

(** A correction is applied when its argument and its factor are both there. *)
Definition applied {A : Type} (argument : option R) (factor : option A) (law : A -> R -> outcome figure) : outcome figure :=
  match argument, factor with Some x, Some f => law f x | _, _ => Ok (Some 1) end.

(** InitialPermeability.cpp:273-434 [get_initial_permeability_formula].  Reading
    the method when there is none is undefined. *)
Definition formula (p : point) (temperature bias frequency flux : option R) (family : option string) : outcome figure :=
  match modifiers p with
  | None => Ok (Some (value p))
  | Some l =>
      m <- resolve l family ;;
      match method m with
      | None => UB "modifier without method"
      | Some Magnetics =>
          t <- applied temperature (by_temperature m) magnetics_temperature ;;
          f <- applied frequency (by_frequency m) magnetics_frequency ;;
          b <- applied bias (by_bias m) (fun x h => Ok (magnetics_bias x h)) ;;
          Ok (fmul (fmul (fmul (Some (value p)) t) f) b)
      | Some Micrometals =>
          let v := match frequency, by_frequency m with
                   | Some x, Some f => micrometals_frequency f x
                   | _, _ => Some (value p)
                   end in
          t <- applied temperature (by_temperature m) micrometals_temperature ;;
          b <- applied bias (by_bias m) micrometals_bias ;;
          x <- applied flux (by_flux m) (fun f b => Ok (micrometals_flux f b)) ;;
          Ok (fmul (fmul (fmul v t) b) x)
      | Some Poco =>
          f <- applied frequency (by_frequency m) (fun f x => Ok (poco_frequency f x)) ;;
          b <- applied bias (by_bias m) poco_bias ;;
          Ok (fmul (fmul (Some (value p)) f) b)
      | Some Tdg =>
          b <- applied bias (by_bias m) (fun x h => Ok (tdg_bias x h)) ;;
          Ok (fmul (Some (value p)) b)
      | Some FairRite =>
          t <- applied temperature (by_temperature m) (fun f t => Ok (fair_rite_temperature f t)) ;;
          Ok (fmul (Some (value p)) t)
      end
  end.

(** ** Measured points *)

(** InitialPermeability.cpp:436-450: the temperature nearest to 25 (Defaults.h:56);
    [None] is DBL_MAX. *)
Fixpoint nearest (l : list point) (best : option R) : option R :=
  match l with
  | [] => best
  | p :: r =>
      match at_temperature p, best with
      | Some t, Some b => nearest r (if Rlt_dec (Rabs (t - 25)) (Rabs (b - 25)) then Some t else best)
      | Some t, None => nearest r (Some t)
      | None, _ => nearest r best
      end
  end.
Definition nearest_temperature (l : list point) : option R := nearest l None.

(** InitialPermeability.cpp:452-470, 492-510: [min_element], of which a point
    without the figure is never the least but when all are. *)
Fixpoint least (key : point -> option R) (l : list point) (best : option R) : option R :=
  match l with
  | [] => best
  | p :: r =>
      match key p, best with
      | Some x, Some b => least key r (if Rlt_dec x b then Some x else best)
      | Some x, None => least key r (Some x)
      | None, _ => least key r best
      end
  end.
Definition or_default (d : R) (x : option R) : R := match x with Some v => v | None => d end.
Definition minimum_frequency (l : list point) : outcome R :=
  match l with [] => UB "min_element of nothing" | _ => Ok (or_default 100 (least at_frequency l None)) end.
Definition minimum_bias (l : list point) : outcome R :=
  match l with [] => UB "min_element of nothing" | _ => Ok (or_default 0 (least at_bias l None)) end.

(** InitialPermeability.cpp:472-490: [max_element], of which a point without the
    figure is the greatest; [None] is DBL_MAX. *)
Fixpoint greatest (l : list point) (best : R) : option R :=
  match l with
  | [] => Some best
  | p :: r => match at_frequency p with Some x => greatest r (if Rlt_dec best x then x else best) | None => None end
  end.
Definition maximum_frequency (l : list point) : outcome (option R) :=
  match l with
  | [] => UB "max_element of nothing"
  | p :: r => Ok (match at_frequency p with Some x => greatest r x | None => None end)
  end.

Inductive axis := Temperature | Frequency | Bias.
Definition key_of (a : axis) (p : point) : option R :=
  match a with Temperature => at_temperature p | Frequency => at_frequency p | Bias => at_bias p end.

Definition at_most (x : option R) (limit : R) : bool :=
  match x with Some v => if Rlt_dec limit v then false else true | None => true end.
Definition is_at (x : option R) (wanted : option R) : bool :=
  match x, wanted with
  | Some v, Some w => if Req_EM_T v w then true else false
  | Some _, None => false
  | None, _ => true
  end.

(** InitialPermeability.cpp:539-559, 643-660, 693-713: the points that only differ
    along one axis. *)
Definition only (a : axis) (l : list point) : outcome (list point) :=
  match a with
  | Temperature =>
      f <- minimum_frequency l ;; b <- minimum_bias l ;;
      Ok (filter (fun p => at_most (at_frequency p) f && at_most (at_bias p) b) l)
  | Frequency =>
      b <- minimum_bias l ;;
      Ok (filter (fun p => is_at (at_temperature p) (nearest_temperature l) && at_most (at_bias p) b) l)
  | Bias =>
      f <- minimum_frequency l ;;
      Ok (filter (fun p => is_at (at_temperature p) (nearest_temperature l) && at_most (at_frequency p) f) l)
  end.

(** The figures of the points along the axis; reading one that is not there is
    undefined (InitialPermeability.cpp:725-735 and its siblings). *)
Fixpoint read (a : axis) (l : list point) : outcome (list (R * R)) :=
  match l with
  | [] => Ok []
  | p :: r =>
      match key_of a p with
      | Some x => t <- read a r ;; Ok ((x, value p) :: t)
      | None => UB "point without its figure"
      end
  end.
Definition table (a : axis) (l : list point) : outcome (list (R * R)) :=
  t <- read a l ;; Ok (LossFactorModel.rising None (LossFactorModel.sort t)).

(** ** Caches *)

(** InitialPermeability.h:22-24: by the name of the material. *)
Definition memory := axis -> string -> option (list (R * R)).
Definition axis_eqb (a b : axis) : bool :=
  match a, b with Temperature, Temperature | Frequency, Frequency | Bias, Bias => true | _, _ => false end.
Definition remember (m : memory) (a : axis) (n : string) (t : list (R * R)) : memory :=
  fun b x => if axis_eqb a b && String.eqb n x then Some t else m b x.
Definition nothing : memory := fun _ _ => None.

Definition atleast1 (x : R) : R := if Rlt_dec 1 x then x else 1.

Section Measured.
(** [tk::spline] of type [cspline_hermite], the frequencies at which the formulas
    are sampled ([logarithmic_spaced_array], InitialPermeability.cpp:592) and
    [AmplitudePermeability::get_amplitude_permeability] of a flux density or of a
    field at a temperature. *)
Variable spline : list (R * R) -> R -> R.
Variable samples : list R.
Variable amplitude : material -> option R -> option R -> R -> outcome (option R).

(** InitialPermeability.cpp:739-760 (two points are joined by a line), 800-815 and
    850-864 (one point is not limited to 1). *)
Definition interpolate (a : axis) (t : list (R * R)) (x : R) : R :=
  match a, t with
  | _, [] => 0
  | Temperature, [(_, c)] => atleast1 c
  | _, [(_, c)] => c
  | Temperature, [(x0, y0); (x1, y1)] => atleast1 (y0 + (y1 - y0) * (x - x0) / (x1 - x0))
  | _, _ => atleast1 (spline t x)
  end.

(** InitialPermeability.cpp:589-627 [sample_initial_permeability_by_frequency_modifier]:
    the modifier called default, which is made when it is not there; other makers
    give 1. *)
Definition empty_modifier : modifier :=
  {| method := None; by_temperature := None; by_frequency := None; by_bias := None; by_flux := None |}.
Definition default_modifier (p : point) : option modifier :=
  match modifiers p with
  | None => None
  | Some l => Some (match entry_of "default" l with Some m => m | None => empty_modifier end)
  end.
Definition sample (v : R) (k : maker) (f : frequency_factor) (x : R) : outcome R :=
  y <- match k with
       | Magnetics => y <- magnetics_frequency f x ;; Ok (fmul (Some v) y)
       | Micrometals => Ok (micrometals_frequency f x)
       | Poco => Ok (fmul (Some v) (poco_frequency f x))
       | _ => Ok (Some 1)
       end ;;
  match y with Some r => Ok r | None => UB "sample that is not finite" end.
Fixpoint sampled (v : R) (k : maker) (f : frequency_factor) (l : list R) : outcome (list point) :=
  match l with
  | [] => Ok []
  | x :: r =>
      y <- sample v k f x ;; t <- sampled v k f r ;;
      Ok ({| value := y; at_temperature := None; at_frequency := Some x; at_bias := None; modifiers := None |} :: t)
  end.
Definition sampled_points (p : point) : outcome (list point) :=
  match default_modifier p with
  | Some m =>
      match by_frequency m with
      | Some f => match method m with Some k => sampled (value p) k f samples | None => UB "modifier without method" end
      | None => Ok []
      end
  | None => Ok []
  end.

(** The points an axis is interpolated from; of a formula only the frequency. *)
Definition points_along (a : axis) (x : material) : outcome (list point) :=
  match initial x, a with
  | Measured l, _ => only a l
  | Formula p, Frequency => sampled_points p
  | Formula _, _ => Throw "bad_variant_access"
  end.

(** InitialPermeability.cpp:715-774, 776-824, 826-873
    [get_initial_permeability_temperature_dependent] and its siblings; only along
    the temperature the Curie temperature counts. *)
Definition along (a : axis) (m : memory) (c : material) (x : R) : outcome R * memory :=
  match points_along a c with
  | Ok [] => (Throw "InvalidInputException", m)
  | Ok l =>
      let result t :=
        match a, curie c with
        | Temperature, Some limit => if Rlt_dec limit x then 1 else interpolate a t x
        | _, _ => interpolate a t x
        end in
      match m a (name c) with
      | Some t => (Ok (result t), m)
      | None =>
          match table a l with
          | Ok t => (Ok (result t), remember m a (name c) t)
          | Throw e => (Throw e, m)
          | UB e => (UB e, m)
          | OutOfFuel => (OutOfFuel, m)
          end
      end
  | Throw e => (Throw e, m)
  | UB e => (UB e, m)
  | OutOfFuel => (OutOfFuel, m)
  end.

(** InitialPermeability.cpp:128-194: what the permeability depends on. *)
Definition depends_on_frequency (c : material) : bool :=
  match initial c with
  | Formula p => match default_modifier p with
                 | Some m => match by_frequency m with Some _ => true | None => false end
                 | None => false
                 end
  | Measured l => existsb (fun p => match at_frequency p with
                                    | Some f => if Rlt_dec 100 f then true else false
                                    | None => false end) l
  end.
Fixpoint differs (l : list point) (first : option R) : bool :=
  match l with
  | [] => false
  | p :: r =>
      match at_temperature p, first with
      | Some t, Some f => if Rlt_dec (1 / 1000000000) (Rabs (f - t)) then true else differs r first
      | Some t, None => differs r (Some t)
      | None, _ => differs r first
      end
  end.
Definition depends_on_temperature (c : material) : bool :=
  match initial c with Formula _ => false | Measured l => differs l None end.
Definition depends_on_bias (c : material) : bool :=
  match initial c with
  | Formula _ => false
  | Measured l => existsb (fun p => match at_bias p with
                                    | Some h => if Rlt_dec 0 h then true else false
                                    | None => false end) l
  end.

(** InitialPermeability.cpp:984-992: the point nearest to 25 degrees. *)
Fixpoint ambient (l : list point) (best : option (R * R)) : option (R * R) :=
  match l with
  | [] => best
  | p :: r =>
      let d := Rabs (or_default 25 (at_temperature p) - 25) in
      ambient r (match best with
                 | Some (b, _) => if Rlt_dec d b then Some (d, value p) else best
                 | None => Some (d, value p)
                 end)
  end.

(** A computation that may use and extend the caches. *)
Definition step {A B : Type} (x : outcome A * memory) (f : A -> memory -> outcome B * memory) : outcome B * memory :=
  match x with
  | (Ok a, m) => f a m
  | (Throw e, m) => (Throw e, m)
  | (UB e, m) => (UB e, m)
  | (OutOfFuel, m) => (OutOfFuel, m)
  end.

(** InitialPermeability.cpp:950-993: the reference, and whether it is the answer
    (the placeholder material without points). *)
Definition reference (m : memory) (c : material) (l : list point) : outcome (R * bool) * memory :=
  if depends_on_temperature c then step (along Temperature m c 25) (fun r m => (Ok (r, false), m))
  else if depends_on_frequency c then
    step (minimum_frequency l, m) (fun f m => step (along Frequency m c f) (fun r m => (Ok (r, false), m)))
  else if depends_on_bias c then
    step (minimum_bias l, m) (fun h m => step (along Bias m c h) (fun r m => (Ok (r, false), m)))
  else match ambient l None with
       | None => if String.eqb (name c) "Dummy" then (Ok (1, true), m) else (Throw "InvalidInputException", m)
       | Some (_, v) => (Ok (v, false), m)
       end.

(** One factor: InitialPermeability.cpp:995-1008.  A reference of zero divides by
    zero in the code: undefined here. *)
Definition factor (on : bool) (argument : option R) (a : axis) (r : R) (m : memory) (c : material) : outcome R * memory :=
  match on, argument with
  | true, Some x =>
      step (along a m c x) (fun v m => (if Req_EM_T r 0 then UB "reference of zero" else Ok (v / r), m))
  | _, _ => (Ok 1, m)
  end.

(** InitialPermeability.cpp:1010-1047: the share left by saturation. *)
Definition saturation (c : material) (r : R) (temperature bias flux : option R) : outcome R :=
  if depends_on_bias c then Ok 1
  else
    let t := or_default 25 temperature in
    a <- match bias, flux with
         | Some h, _ => if Req_EM_T h 0 then Ok None else amplitude c None (Some (Rabs h)) t
         | None, Some b => if Rle_dec b 0 then Ok None else amplitude c (Some b) None t
         | None, None => Ok None
         end ;;
    match a with
    | Some v => if Rlt_dec v r then if Req_EM_T r 0 then UB "reference of zero" else Ok (v / r) else Ok 1
    | None => Ok 1
    end.

(** InitialPermeability.cpp:930-1049: the permeability before the Curie
    temperature is looked at. *)
Definition plain (m : memory) (c : material) (temperature bias frequency flux : option R) (family : option string)
  : outcome figure * memory :=
  match initial c with
  | Formula p => (formula p temperature bias frequency flux family, m)
  | Measured l =>
      step (reference m c l) (fun rb m =>
        let '(r, stop) := rb in
        if stop : bool then (Ok (Some 1), m)
        else
          step (factor (depends_on_temperature c) temperature Temperature r m c) (fun t m =>
          step (factor (depends_on_frequency c) frequency Frequency r m c) (fun f m =>
          step (factor (depends_on_bias c) bias Bias r m c) (fun b m =>
          step (saturation c r temperature bias flux, m) (fun s m =>
          (Ok (Some (r * t * f * b * s)), m))))))
  end.

(** InitialPermeability.cpp:923-1062 [get_initial_permeability].  The placeholder
    leaves before the Curie temperature is looked at, with the same value. *)
Definition permeability (m : memory) (c : material) (temperature bias frequency flux : option R) (family : option string)
  : outcome R * memory :=
  step (plain m c temperature bias frequency flux family) (fun v m =>
    let v := match curie c, temperature with
             | Some limit, Some t => if Rlt_dec limit t then Some 1 else v
             | _, _ => v
             end in
    (match v with Some r => Ok r | None => Throw "NaNResultException" end, m)).

(** ** The frequency at which the permeability has dropped *)

(** InitialPermeability.cpp:899-917: [n] steps are left.  To want a permeability of
    zero makes the error infinite or NaN, and neither is below a limit. *)
Fixpoint halve (n : nat) (m : memory) (c : material) (wanted error low high current : R) : outcome R * memory :=
  match n with
  | O => (Ok current, m)
  | S n =>
      step (along Frequency m c current) (fun v m =>
        if (if Req_EM_T wanted 0 then false
            else if Rlt_dec (Rabs (v - wanted) / wanted) error then true else false) then (Ok current, m)
        else if Rlt_dec wanted v then halve n m c wanted error current high ((high + current) / 2)
        else halve n m c wanted error low current ((current + low) / 2))
  end.

(** InitialPermeability.cpp:875-920 [calculate_frequency_for_initial_permeability_drop]:
    [None] is NaN.  A greatest frequency of DBL_MAX is a point without frequency,
    which is undefined when it is read. *)
Definition drop_frequency (m : memory) (c : material) (drop error : R) : outcome (option R) * memory :=
  if depends_on_frequency c then
    step (match initial c with Formula p => sampled_points p | Measured l => Ok l end, m) (fun l m =>
    step (minimum_frequency l, m) (fun low m =>
    step (maximum_frequency l, m) (fun high m =>
    step (along Frequency m c low) (fun r m =>
      match high with
      | None => (UB "greatest frequency of DBL_MAX", m)
      | Some high =>
          step (halve 100 m c (r * (1 - drop)) error low high ((high + low) / 2)) (fun f m => (Ok (Some f), m))
      end))))
  else (Ok None, m).
End Measured.
