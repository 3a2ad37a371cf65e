(** Model of src/physical_models/Impedance.cpp: the impedance of a magnetic over
    frequency, over the real numbers.  [None] stands for a complex figure that is not
    finite, where the code divides by zero. *)
From Coq Require Import Reals List Bool String ZArith QArith.
From Verif Require Import Base UtilsNumModel NumberTurnsModel.
Import ListNotations.
Local Open Scope R_scope.

(** [std::complex<double>] *)
Definition complex := (R * R)%type.
Definition cplus (a b : complex) : complex := (fst a + fst b, snd a + snd b).
Definition cminus (a b : complex) : complex := (fst a - fst b, snd a - snd b).
Definition ctimes (a b : complex) : complex := (fst a * fst b - snd a * snd b, fst a * snd b + snd a * fst b).
Definition cscale (k : R) (a : complex) : complex := (k * fst a, k * snd a).
Definition square (a : complex) : R := fst a * fst a + snd a * snd a.
Definition magnitude (a : complex) : R := sqrt (square a).
(** [1.0 / a] *)
Definition cinverse (a : complex) : option complex :=
  if Req_EM_T (square a) 0 then None else Some (fst a / square a, - snd a / square a).
Definition obind {A B : Type} (o : option A) (f : A -> option B) : option B :=
  match o with Some a => f a | None => None end.
Definition osum (a b : option complex) : option complex := obind a (fun x => obind b (fun y => Some (cplus x y))).

(** Constants of Impedance.cpp:222-223. *)
Definition mu_0 : R := 4 / 10000000 * PI.
Definition eps_0 : R := 88541878128 / 10000000000 / 1000000000000.

(** MAS [PermittivityPoint] and [Permittivity]: one point or a table of them. *)
Record point := mkPoint { p_frequency : option R; p_value : R }.
Inductive permittivity := Single (p : point) | Table (l : list point).

(** Impedance.cpp:180-185: the points with a frequency and a value above zero. *)
Fixpoint usable (l : list point) : list (R * R) :=
  match l with
  | [] => []
  | p :: rest =>
      match p_frequency p with
      | Some f => if Rlt_dec 0 (p_value p) then (f, p_value p) :: usable rest else usable rest
      | None => usable rest
      end
  end.
(** Impedance.cpp:189 [std::sort] of pairs. *)
Definition pair_le (a b : R * R) : bool :=
  if Rlt_dec (fst a) (fst b) then true
  else if Req_EM_T (fst a) (fst b) then (if Rle_dec (snd a) (snd b) then true else false) else false.
Fixpoint insert (p : R * R) (l : list (R * R)) : list (R * R) :=
  match l with
  | [] => [p]
  | q :: rest => if pair_le p q then p :: l else q :: insert p rest
  end.
Fixpoint ordered (l : list (R * R)) : list (R * R) :=
  match l with [] => [] | p :: rest => insert p (ordered rest) end.

(** Impedance.cpp:194-195; the logarithms are finite and the division is by no zero
    when the first frequency is above zero and the second is another one. *)
Definition along (p q : R * R) (f : R) : option R :=
  if Rlt_dec 0 (fst p) then
    if Req_EM_T (fst p) (fst q) then None
    else Some (snd p * Rpower (snd q / snd p) (ln (f / fst p) / ln (fst q / fst p)))
  else None.
(** Impedance.cpp:192-198: the first stretch that holds the frequency. *)
Fixpoint stretch (f : R) (p : R * R) (l : list (R * R)) : option R :=
  match l with
  | [] => Some (snd p)
  | q :: rest =>
      if Rle_dec (fst p) f then if Rle_dec f (fst q) then along p q f else stretch f q rest
      else stretch f q rest
  end.
(** Impedance.cpp:173-199 [interpolate_permittivity_points]. *)
Definition permittivity_at (data : permittivity) (f : R) : option R :=
  match data with
  | Single p => Some (p_value p)
  | Table points =>
      match ordered (usable points) with
      | [] => Some (match points with [] => 0 | p :: _ => p_value p end)
      | p :: rest =>
          if Rle_dec f (fst p) then Some (snd p)
          else if Rle_dec (fst (last rest p)) f then Some (snd (last rest p))
          else stretch f p rest
      end
  end.

(** Impedance.cpp:253-258: the odd numbers up to 81. *)
Definition odds (n : nat) : list R := map (fun i => 2 * INR i + 1) (seq 0 n).
(** Impedance.cpp:256-257, one term. *)
Definition series_term (a b : R) (k2 : complex) (m n : R) : option complex :=
  let kmn2 := (m * PI / a) ^ 2 + (n * PI / b) ^ 2 in
  obind (cinverse (cscale (PI ^ 4 * m * m * n * n) (cminus (kmn2, 0) k2))) (fun i => Some (ctimes (cscale 64 k2) i)).
(** Impedance.cpp:252-260: the sum over both, from the first. *)
Fixpoint inner_sum (a b : R) (k2 : complex) (m : R) (ns : list R) (sum : option complex) : option complex :=
  match ns with [] => sum | n :: rest => inner_sum a b k2 m rest (osum sum (series_term a b k2 m n)) end.
Fixpoint double_sum (a b : R) (k2 : complex) (ms ns : list R) (sum : option complex) : option complex :=
  match ms with [] => sum | m :: rest => double_sum a b k2 rest ns (inner_sum a b k2 m ns sum) end.

(** A core material as this file sees it: its complex permeability, real and
    imaginary parts at a frequency ([ComplexPermeability]), and the real and imaginary
    parts of its permittivity, if it has one. *)
Record material := mkMaterial {
  mt_permeability : R -> complex;
  mt_permittivity : option (permittivity * permittivity)
}.

(** Impedance.cpp:41-50 of the header [ImpedanceTank]. *)
Record tank := mkTank {
  t_inductance : R; t_capacitance : R; t_core : bool; t_secondary : nat; t_ratio2 : R
}.
(** Impedance.h:56-75 [WidebandImpedanceModel]; [w_skin] is, for each winding, its DC
    resistance per metre and its effective resistance per metre at a frequency,
    [w_proximity] the effective resistance of a winding, present with the magnetic of
    the slow path. *)
Record wideband := mkWideband {
  w_material : option material;
  w_dimensions : list R;
  w_scaling : R;
  w_tanks : list tank;
  w_dc : list R;
  w_skin : option (list (R * (R -> R)));
  w_proximity : option (nat -> R -> R);
  w_fast : bool
}.

Definition positive (x : R) : bool := if Rlt_dec 0 x then true else false.

Section Impedance.
(** Impedance.cpp:246-249 [tan(x) / x] for [x = k d / 2], an even function of [k] and
    so a function of its square.  It is only used when one of the two dimensions is
    not above zero. *)
Variable slab : complex -> R -> option complex.

(** Impedance.cpp:201-262 [core_dimensional_attenuation].  [k * k] is what is under the
    root, times the square of the angular frequency. *)
Definition attenuation (mt : material) (f : R) (mu : complex) (dimensions : list R) : option complex :=
  match mt_permittivity mt, dimensions with
  | None, _ | _, [] => Some (1, 0)
  | Some (re, im), _ =>
      obind (permittivity_at re f) (fun eps_re =>
      obind (permittivity_at im f) (fun eps_im =>
        if Rle_dec eps_re 0 then Some (1, 0)
        else
          let w := 2 * PI * f in
          let k2 := cscale (w ^ 2 * mu_0 * eps_0) (ctimes (fst mu, - snd mu) (eps_re, - eps_im)) in
          match filter positive dimensions with
          | [] => Some (1, 0)
          | [d] => slab k2 d
          | a :: b :: _ => osum (Some (1, 0)) (double_sum a b k2 (odds 41) (odds 41) (Some (0, 0)))
          end))
  end.

(** Impedance.cpp:267-280: the permeability of the magnetizing tank, real and
    imaginary parts. *)
Definition effective_permeability (m : wideband) (f : R) : option complex :=
  match w_material m with
  | None => Some (1, 0)
  | Some mt =>
      let mu := mt_permeability mt f in
      obind (attenuation mt f mu (w_dimensions m)) (fun factor =>
        let e := ctimes (fst mu, - snd mu) factor in
        Some (fst e * w_scaling m, - snd e * w_scaling m))
  end.

(** Impedance.cpp:286-300 [windingResistanceAt]; the lists of resistances have the
    same length. *)
Definition resistance_at (m : wideband) (f : R) (winding : nat) : R :=
  match (if w_fast m then None else w_proximity m) with
  | Some proximity => proximity winding f
  | None =>
      let dc := nth winding (w_dc m) 0 in
      match w_skin m with
      | Some l => match nth_error l winding with
                  | Some (per_metre, at_frequency) =>
                      if Rlt_dec 0 per_metre then dc * (at_frequency f / per_metre) else dc
                  | None => dc
                  end
      | None => dc
      end
  end.

(** Impedance.cpp:319-327: the series arm of a tank. *)
Definition series_arm (m : wideband) (f : R) (mu : complex) (t : tank) : complex :=
  let w := 2 * PI * f in
  if t_core t then cscale (w * t_inductance t) (snd mu, fst mu)
  else (resistance_at m f 0 + t_ratio2 t * resistance_at m f (t_secondary t), w * t_inductance t).
(** Impedance.cpp:329-335 and :74-83: with the capacitance across it. *)
Definition shunted (f : R) (arm : complex) (capacitance : R) : option complex :=
  if Rlt_dec 0 capacitance then
    let w := 2 * PI * f in
    if Req_EM_T (w * capacitance) 0 then None
    else
      obind (cinverse arm) (fun i =>
      obind (cinverse (0, - 1 / (w * capacitance))) (fun c => cinverse (cplus i c)))
  else Some arm.
(** Impedance.cpp:264-339 [impedance_from_model]. *)
Fixpoint cascade (m : wideband) (f : R) (mu : complex) (tanks : list tank) (sum : option complex) : option complex :=
  match tanks with
  | [] => sum
  | t :: rest => cascade m f mu rest (osum sum (shunted f (series_arm m f mu t) (t_capacitance t)))
  end.
Definition impedance_from_model (m : wideband) (f : R) : option complex :=
  obind (effective_permeability m f) (fun mu => cascade m f mu (w_tanks m) (Some (0, 0))).

(** Impedance.cpp:74-83 [differential_mode_impedance_from_parameters]. *)
Definition differential_impedance (leakage resistance capacitance f : R) : option complex :=
  shunted f (resistance, 2 * PI * f * leakage) capacitance.

(** * Building the models *)
(** Coils, stray capacitance models and what is computed of them elsewhere: whether a
    coil has turns, [Coil::wind], which may leave it without, and dropping its sections
    and layers. *)
Variable coil : Type.
Variable wound : coil -> bool.
Variable wind : coil -> coil.
Variable unsectioned : coil -> coil.
Variable winding_turns : coil -> list R.
Variable capacitance_model : Type.
Variable albach : capacitance_model.
(** The matrix of [StrayCapacitance] and the figure of [StrayCapacitanceOneLayer]. *)
Variable stray : capacitance_model -> coil -> nat -> nat -> R.
Variable one_layer : coil -> R.
(** [LeakageInductance] from the first winding to another, of windings in one window *)
Variable leakage : coil -> R -> nat -> R.
(** [WindingOhmicLosses::calculate_dc_resistance_per_winding] *)
Variable dc_resistances : coil -> list R.
(** The resistances per metre of the wires and the effective resistance of a winding. *)
Variable skin_of : coil -> list (R * (R -> R)).
Variable proximity_of : coil -> nat -> R -> R.

(** StrayCapacitance.cpp:541, :1721: no turns, no capacitance. *)
Definition stray_of (cm : capacitance_model) (c : coil) (i j : nat) : outcome R :=
  if wound c then Ok (stray cm c i j) else Throw "Missing turns description".
(** LeakageInductance.cpp:14-20, :132-200. *)
Definition leakage_of (c : coil) (f : R) (i : nat) : outcome R :=
  if wound c then Ok (leakage c f i) else Throw "Turns description is missing".

(** A magnetic: its core's material, processed description (the effective area and
    length, which give the reluctance at unity permeability, and the sizes of the
    columns) and its coil. *)
Record magnetic := mkMagnetic {
  g_material : material;
  g_processed : option (R * list (R * R));
  g_coil : coil
}.

(** Impedance.cpp:116-147: the coil with turns. *)
Definition prepared (c : coil) : outcome coil :=
  if wound c then Ok c
  else if wound (wind c) then Ok (wind c)
  else if wound (wind (unsectioned c)) then Ok (wind (unsectioned c))
  else Throw "Impedance could not wind this coil".

(** Impedance.cpp:90-170 [build_magnetizing_tank]; the coil is given back as it is
    left. *)
Definition magnetizing_tank (fast_capacitance : bool) (chosen : capacitance_model) (processed : option (R * list (R * R)))
    (c : coil) : outcome (tank * coil) :=
  match processed with
  | None => Throw "Impedance needs the core's processed description"
  | Some (reluctance, _) =>
      match winding_turns c with
      | [] => UB "no windings"
      | n :: others =>
          let inductance := n * n / reluctance in
          match (if fast_capacitance then Ok (one_layer c, c)
                 else match prepared c with
                      | Ok c' => match stray_of chosen c' 0 0 with
                                 | Ok x => Ok (x, c') | Throw e => Throw e | UB e => UB e | OutOfFuel => OutOfFuel
                                 end
                      | Throw e => Throw e | UB e => UB e | OutOfFuel => OutOfFuel
                      end) with
          | Ok (x, c') => Ok (mkTank inductance (match others with [] => x | _ => x * INR (S (List.length others)) end) true 0 0, c')
          | Throw e => Throw e | UB e => UB e | OutOfFuel => OutOfFuel
          end
      end
  end.

(** Impedance.cpp:347-350. *)
Definition dimensions_of (processed : option (R * list (R * R))) : list R :=
  match processed with Some (_, (w, d) :: _) => [w; d] | _ => [] end.
Definition plain_model (g : magnetic) (scaling : R) (t : tank) : wideband :=
  mkWideband (Some (g_material g)) (dimensions_of (g_processed g)) scaling [t] [] None None true.

(** Impedance.cpp:424-441 [build_common_mode_impedance_model]; :457-480 with another
    scaling. *)
Definition common_mode_model (fast_capacitance : bool) (chosen : capacitance_model) (scaling : R) (g : magnetic)
    : outcome wideband :=
  match magnetizing_tank fast_capacitance chosen (g_processed g) (g_coil g) with
  | Ok (t, _) => Ok (plain_model g scaling t)
  | Throw e => Throw e | UB e => UB e | OutOfFuel => OutOfFuel
  end.
(** Impedance.cpp:443-455 [calculate_impedance]. *)
Definition calculate_impedance (fast_capacitance : bool) (chosen : capacitance_model) (g : magnetic) (f : R)
    : outcome (option complex) :=
  match common_mode_model fast_capacitance chosen 1 g with
  | Ok m => Ok (impedance_from_model m f)
  | Throw e => Throw e | UB e => UB e | OutOfFuel => OutOfFuel
  end.
(** Impedance.cpp:457-480: with a DC bias; the permeabilities without and with it are
    those of [InitialPermeability]. *)
Definition calculate_biased_impedance (fast_capacitance : bool) (chosen : capacitance_model) (g : magnetic)
    (initial biased f : R) : outcome (option complex) :=
  match common_mode_model fast_capacitance chosen (if Rlt_dec 0 initial then biased / initial else 1) g with
  | Ok m => Ok (impedance_from_model m f)
  | Throw e => Throw e | UB e => UB e | OutOfFuel => OutOfFuel
  end.
(** Impedance.cpp:530-533 [calculate_q_factor]. *)
Definition q_factor (z : option complex) : option R :=
  obind z (fun z => if Req_EM_T (fst z) 0 then None else Some (snd z / fst z)).

(** Impedance.cpp:403-418: one tank for each other winding with a leakage. *)
Fixpoint leakage_tanks (c measured : coil) (f : R) (turns : R) (others : list R) (i : nat) : outcome (list tank) :=
  match others with
  | [] => Ok []
  | n :: rest =>
      match leakage_of measured f i with
      | Ok l =>
          match leakage_tanks c measured f turns rest (S i) with
          | Ok ts =>
              if Rle_dec l 0 then Ok ts
              else match stray_of albach c 0 i with
                   | Ok x => Ok (mkTank l x false i (if Rlt_dec 0 n then (turns / n) ^ 2 else 1) :: ts)
                   | Throw e => Throw e | UB e => UB e | OutOfFuel => OutOfFuel
                   end
          | o => o
          end
      | Throw e => Throw e | UB e => UB e | OutOfFuel => OutOfFuel
      end
  end.
(** Impedance.cpp:341-422 [build_wideband_impedance_model].  The local coil is wound by
    the magnetizing tank; the copy within the magnetic, which the leakage is computed
    from, only when the coil still lacks turns after that. *)
Definition wideband_model (fast_capacitance : bool) (chosen : capacitance_model) (fast : bool) (reference : R) (g : magnetic)
    : outcome wideband :=
  match magnetizing_tank fast_capacitance chosen (g_processed g) (g_coil g) with
  | Ok (t, c) =>
      match winding_turns c with
      | n :: ((_ :: _) as others) =>
          let c' := if wound c then c else wind c in
          let measured := if wound c then g_coil g else wind c in
          match stray_of albach c' 0 0 with
          | Ok _ =>
              match leakage_tanks c' measured reference n others 1 with
              | Ok ts =>
                  Ok (mkWideband (Some (g_material g)) (dimensions_of (g_processed g)) 1 (t :: ts) (dc_resistances c')
                        (if fast then Some (skin_of c') else None) (if fast then None else Some (proximity_of measured)) fast)
              | Throw e => Throw e | UB e => UB e | OutOfFuel => OutOfFuel
              end
          | Throw e => Throw e | UB e => UB e | OutOfFuel => OutOfFuel
          end
      | _ => Ok (mkWideband (Some (g_material g)) (dimensions_of (g_processed g)) 1 [t] [] None None fast)
      end
  | Throw e => Throw e | UB e => UB e | OutOfFuel => OutOfFuel
  end.

(** Impedance.cpp:31-72 [calculate_differential_mode_parameters]: the leakage before
    the coil is wound. *)
Definition differential_parameters (reference : R) (c : coil) : outcome (R * R * R) :=
  match winding_turns c with
  | _ :: _ :: _ =>
      match leakage_of c reference 1 with
      | Ok l =>
          match dc_resistances c with
          | [] => UB "no resistances"
          | r :: _ => match stray_of albach (if wound c then c else wind c) 0 1 with
                      | Ok x => Ok (l, r, x)
                      | Throw e => Throw e | UB e => UB e | OutOfFuel => OutOfFuel
                      end
          end
      | Throw e => Throw e | UB e => UB e | OutOfFuel => OutOfFuel
      end
  | _ => Throw "Differential-mode impedance requires at least two windings"
  end.

(** Impedance.cpp:541-574 [calculate_self_resonant_frequency]: [inductance t] is the
    magnetizing inductance at a temperature, or at the default one without operating
    point, which is what is asked for. *)
Definition self_resonance (fast_capacitance : bool) (chosen : capacitance_model) (c : coil) (inductance : option R -> R)
    (temperature : R) : outcome R :=
  match (if fast_capacitance then Ok (one_layer c)
         else match stray_of albach (if wound c then c else wind c) 0 0 with
              | Ok x => Ok (x * INR (List.length (winding_turns (if wound c then c else wind c))))
              | o => o
              end) with
  | Ok capacitance => Ok (1 / (2 * PI * sqrt (inductance None * capacitance)))
  | o => o
  end.
End Impedance.

(** * The least number of turns *)
(** Impedance.cpp:497-509: the requirements at a number of turns; [None] is
    [return -1].  Each requirement is a frequency and a magnitude. *)
Fixpoint meets_all (impedance : R -> R) (resonance : R) (requirements : list (R * R)) (valid : bool) : option bool :=
  match requirements with
  | [] => Some valid
  | (f, z) :: rest =>
      let valid' := if Rlt_dec (impedance f) z then false else valid in
      if Rlt_dec (1 / 4 * resonance) f then None else meets_all impedance resonance rest valid'
  end.
(** Impedance.cpp:491-519: the search; [impedance n f] and [resonance n] with [n] turns
    on the first winding. *)
Fixpoint turns_search (timeout : nat) (impedance : Z -> R -> R) (resonance : Z -> R) (requirements : list (R * R))
    (g : generator) : outcome Z :=
  let (g', o) := get_next 1 g in
  match o with
  | Ok (n :: _) =>
      match meets_all (impedance n) (resonance n) requirements true with
      | None => Ok (-1)%Z
      | Some true => Ok n
      | Some false => match timeout with
                      | O => Ok (-1)%Z
                      | S t => turns_search t impedance resonance requirements g'
                      end
      end
  | Ok [] => UB "an empty combination"
  | Throw e => Throw e
  | UB e => UB e
  | OutOfFuel => OutOfFuel
  end.
(** Impedance.cpp:482-522 [calculate_minimum_number_turns], with the limit of
    Impedance.h:80. *)
Definition minimum_turns (impedance : Z -> R -> R) (resonance : Z -> R) (requirements : option (list (R * R)))
    (ratios : list dwt) : outcome Z :=
  match create (QArith_base.inject_Z 1) ratios with
  | Ok g => match requirements with
            | None => Throw "Missing impedance requirement"
            | Some l => turns_search 200 impedance resonance l g
            end
  | Throw e => Throw e
  | UB e => UB e
  | OutOfFuel => OutOfFuel
  end.
