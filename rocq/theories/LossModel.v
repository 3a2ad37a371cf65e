(** Model of the winding losses: src/physical_models/WindingOhmicLosses.cpp,
    the per-coil part of WindingSkinEffectLosses.cpp (174-344) and
    WindingProximityEffectLosses.cpp (183-325), and WindingLosses.cpp (10-142,
    169-386).

    Doubles are exact rationals.  A value that may also be an infinity, a NaN or
    indeterminate is an [ext]: [None] stands for all of these.  What a skin or
    proximity model says of a wire (losses per metre) is a parameter, and so are
    the field at the turns and the connections a wound coil has
    (Coil::get_connection_reserved_spaces): the theorems hold for any of them.
    The operating point is already processed (WindingLosses.cpp:172-194 left
    out).  The names of the methods and the origins of the results are left out. *)
From Coq Require Import ZArith QArith List String Bool Lia.
From Verif Require Import Base.
Import ListNotations.
Open Scope outcome_scope.
Open Scope string_scope.
Open Scope list_scope.
Open Scope Q_scope.

Definition ext := option Q.
Definition eadd (a b : ext) : ext :=
  match a, b with Some x, Some y => Some (x + y) | _, _ => None end.
(** an infinity or a NaN times a number is an infinity or a NaN *)
Definition escale (k : Q) (a : ext) : ext :=
  match a with Some x => Some (k * x) | None => None end.

(** ** The coil *)

(** MAS::WireMaterial: resistivity at a reference temperature, and its slope *)
Record material := mkMaterial { reference_value : Q; coefficient : Q; reference_temperature : Q }.

(** MAS::Winding with its wire: the conducting area is what
    Wire::calculate_conducting_area gives; the lengths are those of the
    winding's connections, if it lists any *)
Record winding := mkWinding {
  w_name : string;
  w_turns : nat;
  w_parallels : nat;
  w_material : material;
  w_area : Q;
  w_planar : bool;
  w_connections : option (list (option Q)) }.

Record turn := mkTurn {
  t_name : string;
  t_winding : string;
  t_parallel : Z;
  t_length : option Q; (* None: NaN *)
  t_layer : option string;
  t_section : option string }.

(** Coil.h ConnectionReservedSpace, the fields read here *)
Record space := mkSpace {
  s_winding : string;
  s_parallel : Z;
  s_terminal : bool;
  s_routed : option Q }.

Record coil := mkCoil {
  windings : list winding;
  turns : option (list turn);
  spaces : list space;
  layers : list string;        (* names of the conduction layers *)
  sections : list string;      (* names of the conduction sections *)
  real_geometry : bool }.      (* Settings::get_coil_use_real_winding_geometry *)

(** Coil.cpp:5610-5627 [get_winding_index_by_name] (the memo of a fixed coil
    gives the same answer). *)
Fixpoint index_by_name (l : list winding) (name : string) : option nat :=
  match l with
  | [] => None
  | w :: t =>
      if String.eqb (w_name w) name then Some O
      else match index_by_name t name with Some i => Some (S i) | None => None end
  end.
Definition winding_index (c : coil) (name : string) : outcome nat :=
  match index_by_name (windings c) name with
  | Some i => Ok i
  | None => Throw "No such a winding name in functionalDescription"
  end.

(** Coil.cpp:5270-5272 [get_number_parallels], for an index in range *)
Definition parallels (c : coil) (w : nat) : nat :=
  match nth_error (windings c) w with Some x => w_parallels x | None => O end.

(** one number per winding and parallel; the vectors are as long as the numbers
    of parallels say, and an access outside them is checked where it is made *)
Definition table (A : Type) := nat -> nat -> A.
Definition add_to (m : table Q) (w p : nat) (x : Q) : table Q :=
  fun i j => if Nat.eqb i w && Nat.eqb j p then m i j + x else m i j.
Definition eadd_to (m : table ext) (w p : nat) (x : ext) : table ext :=
  fun i j => if Nat.eqb i w && Nat.eqb j p then eadd (m i j) x else m i j.
(** the vector index an int64_t gives: a negative one wraps around to a huge one *)
Definition index_in (p : Z) (n : nat) : option nat :=
  if (0 <=? p)%Z && (p <? Z.of_nat n)%Z then Some (Z.to_nat p) else None.

(** ** Leads *)

(** WindingOhmicLosses.cpp:46-56 *)
Definition provided_length (w : winding) : Q :=
  match w_connections w with
  | None => 0
  | Some l => fold_left (fun a x => match x with Some q => a + q | None => a end) l 0
  end.

(** WindingOhmicLosses.cpp:76-95: crossings and terminal leads *)
Fixpoint reserve (c : coil) (l : list space) (crossing terminal : table Q)
  : outcome (table Q * table Q) :=
  match l with
  | [] => Ok (crossing, terminal)
  | s :: t =>
      w <- winding_index c (s_winding s) ;;
      match index_in (s_parallel s) (parallels c w) with
      | None => reserve c t crossing terminal
      | Some p =>
          match s_routed s with
          | None => Throw "Connection marker without routedLength"
          | Some run =>
              if s_terminal s
              then reserve c t crossing (add_to terminal w p run)
              else reserve c t (add_to crossing w p run) terminal
          end
      end
  end.

(** WindingOhmicLosses.cpp:18-111
    [calculate_connection_length_per_winding_per_parallel] *)
Definition connection_length (c : coil) : outcome (table Q) :=
  if negb (real_geometry c) then Ok (fun _ _ => 0)
  else if existsb w_planar (windings c)
  then Throw "Real winding geometry is not implemented for planar constructions"
  else
    r <- reserve c (spaces c) (fun _ _ => 0) (fun _ _ => 0) ;;
    let '(crossing, terminal) := r in
    Ok (fun w p =>
      match nth_error (windings c) w with
      | None => 0
      | Some x =>
          crossing w p +
          (if Qlt_bool 0 (provided_length x)
           then provided_length x / inject_Z (Z.of_nat (w_parallels x))
           else terminal w p)
      end).

(** ** Resistances *)

(** Resistivity.cpp:42-45 *)
Definition resistivity (m : material) (temperature : Q) : Q :=
  reference_value m * (1 + coefficient m * (temperature - reference_temperature m)).

(** WindingOhmicLosses.cpp:154-172 [calculate_dc_resistance_per_meter]; an area
    of zero gives an infinity of the resistivity's sign, or 0/0 *)
Definition per_meter (w : winding) (temperature : Q) : outcome ext :=
  let rho := resistivity (w_material w) temperature in
  if Qeq_bool (w_area w) 0
  then (if Qeq_bool rho 0 then Throw "NaN found in dcResistancePerMeter value"
        else if Qlt_bool rho 0 then Throw "dcResistancePerMeter must be positive"
        else Ok None)
  else (if Qle_bool (rho / w_area w) 0 then Throw "dcResistancePerMeter must be positive"
        else Ok (Some (rho / w_area w))).

(** WindingOhmicLosses.cpp:113-139
    [calculate_connection_resistance_per_winding_per_parallel]: one function of
    the parallel per winding *)
Fixpoint connection_resistance (temperature : Q) (length : table Q) (l : list winding) (i : nat)
  : outcome (list (nat -> ext)) :=
  match l with
  | [] => Ok []
  | w :: t =>
      row <- (if existsb (fun p => Qlt_bool 0 (length i p)) (seq 0 (w_parallels w))
              then r <- per_meter w temperature ;; Ok (fun p => escale (length i p) r)
              else Ok (fun _ => Some 0)) ;;
      rest <- connection_resistance temperature length t (S i) ;;
      Ok (row :: rest)
  end.

(** WindingOhmicLosses.cpp:141-152 [calculate_dc_resistance] of a turn *)
Definition turn_resistance (w : winding) (t : turn) (temperature : Q) : outcome ext :=
  match t_length t with
  | None => Throw "NaN found in wireLength value"
  | Some l => r <- per_meter w temperature ;; Ok (escale l r)
  end.

(** where a turn belongs: winding and parallel; the accesses
    […[windingIndex][parallelIndex]] of lines 246-247 and 334-336 *)
Definition branch_of (c : coil) (t : turn) : outcome (nat * nat) :=
  w <- winding_index c (t_winding t) ;;
  match index_in (t_parallel t) (parallels c w) with
  | None => UB "seriesResistance[windingIndex][parallelIndex] out of range"
  | Some p => Ok (w, p)
  end.

(** WindingOhmicLosses.cpp:242-248, 330-337 *)
Fixpoint turn_loop (c : coil) (temperature : Q) (l : list turn) (series : table ext)
  : outcome (list ext * table ext) :=
  match l with
  | [] => Ok ([], series)
  | t :: rest =>
      w <- winding_index c (t_winding t) ;;
      match nth_error (windings c) w with
      | None => UB "wirePerWinding out of range"
      | Some x =>
          r <- turn_resistance x t temperature ;;
          b <- branch_of c t ;;
          o <- turn_loop c temperature rest (eadd_to series (fst b) (snd b) r) ;;
          Ok (r :: fst o, snd o)
      end
  end.

(** WindingOhmicLosses.cpp:209-226 [check_parallel_branch] and 262-266, 351-355:
    the sum of the branches' conductances *)
Fixpoint conductance (series : nat -> ext) (ps : list nat) (sum : Q) : outcome Q :=
  match ps with
  | [] => Ok sum
  | p :: t =>
      match series p with
      | Some r =>
          if Qlt_bool 0 r then conductance series t (sum + 1 / r)
          else Throw "The coil must be re-wound before its losses can be computed"
      | None => Throw "The coil must be re-wound before its losses can be computed"
      end
  end.
(** [1. / conductance] *)
Definition inverse (x : Q) : ext := if Qeq_bool x 0 then None else Some (1 / x).

Fixpoint resistance_loop (series : table ext) (l : list winding) (i : nat) : outcome (list ext) :=
  match l with
  | [] => Ok []
  | w :: t =>
      g <- conductance (series i) (seq 0 (w_parallels w)) 0 ;;
      rest <- resistance_loop series t (S i) ;;
      Ok (inverse g :: rest)
  end.

(** lines 252-257, 341-346: leads in series with the turns *)
Definition with_leads (series : table ext) (leads : list (nat -> ext)) : table ext :=
  fun w p => eadd (series w p) (nth w leads (fun _ => Some 0) p).

Definition no_resistance : table ext := fun _ _ => Some 0.

(** the part lines 231-257 and 330-346 have in common: resistances of the turns
    and of the branches *)
Definition branches (c : coil) (temperature : Q) (l : list turn) : outcome (list ext * table ext) :=
  o <- turn_loop c temperature l no_resistance ;;
  len <- connection_length c ;;
  leads <- connection_resistance temperature len (windings c) 0 ;;
  Ok (fst o, with_leads (snd o) leads).

(** WindingOhmicLosses.cpp:230-272 [calculate_dc_resistance_per_winding] *)
Definition dc_resistance_per_winding (c : coil) (temperature : Q) : outcome (list ext) :=
  match turns c with
  | None => Throw "Missing turns description"
  | Some l =>
      b <- branches c temperature l ;;
      resistance_loop (snd b) (windings c) 0
  end.

(** ** Currents and results *)

(** MAS::SignalDescriptor of a current: its processed RMS; what processing its
    waveform gives, if it has one that is not empty (a call that can throw and
    may give no RMS); its harmonics *)
Record current := mkCurrent {
  c_rms : option Q;
  c_derived : option (outcome (option Q));
  c_harmonics : option (list Q * list Q) }. (* amplitudes, frequencies *)

(** one excitation per winding; the current is optional *)
Definition operating_point := list (option current).

(** WindingOhmicLosses.cpp:284-326 *)
Definition winding_current (op : operating_point) (w : nat) : outcome Q :=
  match nth_error op w with
  | None | Some None => Ok 0
  | Some (Some i) =>
      match c_rms i, c_derived i with
      | Some r, _ => Ok r
      | None, Some d =>
          r <- d ;;
          match r with
          | Some q => Ok q
          | None => Throw "Could not derive RMS from the waveform"
          end
      | None, None => Throw "neither a processed RMS nor a waveform to derive it from"
      end
  end.
Fixpoint winding_currents (op : operating_point) (ws : list nat) : outcome (list Q) :=
  match ws with
  | [] => Ok []
  | w :: t => i <- winding_current op w ;; rest <- winding_currents op t ;; Ok (i :: rest)
  end.

(** MAS::WindingLossesPerElement: ohmic losses, and per harmonic (frequency,
    losses) the skin and proximity ones *)
Record element := mkElement {
  e_name : string;
  e_ohmic : ext;
  e_skin : option (list (Q * Q));
  e_proximity : option (list (Q * Q)) }.

(** MAS::WindingLossesOutput *)
Record output := mkOutput {
  per_turn : list element;
  per_layer : list element;
  per_section : list element;
  per_winding : list element;
  total : ext;
  resistance_of_turn : list ext;
  resistance_of_winding : list ext;
  divider_of_turn : list ext;
  excitations : operating_point }.

(** [a / b] when b is not zero *)
Definition ediv (a : ext) (b : Q) : ext :=
  match a with Some x => Some (x / b) | None => None end.

(** WindingOhmicLosses.cpp:357-359: the current of each branch *)
Definition branch_current (i : Q) (resistance series : ext) : ext :=
  match resistance, series with
  | Some r, Some s => if Qeq_bool s 0 then None else Some (i * r / s)
  | _, _ => None
  end.

(** [pow(current, 2) * resistance] *)
Definition dissipation (i r : ext) : ext :=
  match i, r with Some a, Some b => Some (a * a * b) | _, _ => None end.

(** WindingOhmicLosses.cpp:364-385 *)
Fixpoint turn_losses (c : coil) (currents : list Q) (branch : table ext)
    (l : list turn) (rs : list ext) : outcome (list element * list ext) :=
  match l, rs with
  | t :: l', r :: rs' =>
      b <- branch_of c t ;;
      let i := nth (fst b) currents 0 in
      let d := if Qeq_bool i 0 then Some 0 else ediv (branch (fst b) (snd b)) i in
      match d with
      | None => Throw "NaN found in currentDividerThisTurn value"
      | Some _ =>
          o <- turn_losses c currents branch l' rs' ;;
          Ok (mkElement (t_name t) (dissipation (branch (fst b) (snd b)) r) None None :: fst o,
              d :: snd o)
      end
  | _, _ => Ok ([], [])
  end.

(** WindingOhmicLosses.cpp:391-396 *)
Definition winding_loss (series branch : nat -> ext) (n : nat) : ext :=
  fold_left (fun a p => eadd a (dissipation (branch p) (series p))) (seq 0 n) (Some 0).

(** WindingOhmicLosses.cpp:389-407 *)
Definition winding_losses (c : coil) (series branch : table ext) : list element :=
  map (fun w =>
    mkElement (match nth_error (windings c) w with Some x => w_name x | None => "" end)
      (winding_loss (series w) (branch w) (parallels c w)) None None)
    (seq 0 (List.length (windings c))).

Definition esum (l : list ext) : ext := fold_left eadd l (Some 0).

(** WindingOhmicLosses.cpp:274-422 [calculate_ohmic_losses] *)
Definition ohmic_losses (c : coil) (op : operating_point) (temperature : Q) : outcome output :=
  match turns c with
  | None => Throw "Missing turns description"
  | Some l =>
      currents <- winding_currents op (seq 0 (List.length (windings c))) ;;
      b <- branches c temperature l ;;
      let '(rs, series) := b in
      resistances <- resistance_loop series (windings c) 0 ;;
      let branch := fun w p =>
        branch_current (nth w currents 0) (nth w resistances None) (series w p) in
      t <- turn_losses c currents branch l rs ;;
      let ws := winding_losses c series branch in
      Ok (mkOutput (fst t) [] [] ws (esum (map e_ohmic ws)) rs resistances (snd t) op)
  end.

(** WindingOhmicLosses.cpp:424-438 [calculate_ohmic_losses_per_meter]; the
    argument says whether the current is processed *)
Definition ohmic_losses_per_meter (w : winding) (processed : option (option Q)) (temperature : Q)
  : outcome ext :=
  r <- per_meter w temperature ;;
  match processed with
  | None => Throw "Current is not processed"
  | Some None => Throw "Current processed is missing field RMS"
  | Some (Some i) => Ok (dissipation (Some i) r)
  end.

(** ** Skin effect *)

Section Models.

(** WindingSkinEffectLossesModel::calculate_turn_losses: wire, losses per metre
    at DC, frequency, amplitude of the current (the code hands the RMS, which
    is the amplitude over the square root of two), temperature *)
Variable skin_model : winding -> ext -> Q -> Q -> Q -> outcome Q.

(** the losses per metre due to the field at a turn, (losses, frequency) per
    harmonic, at its first crossing of the plane and, if it has one, at its
    second (WindingProximityEffectLosses.cpp:225-288) *)
Variable field_losses : nat -> winding -> outcome (list (Q * Q) * option (list (Q * Q))).

(** WindingSkinEffectLosses.cpp:190-206: the harmonics after the first *)
Fixpoint skin_harmonics (w : winding) (dc : ext) (temperature : Q) (divider : Q)
    (l : list (Q * Q)) : outcome (list (Q * Q)) :=
  match l with
  | [] => Ok []
  | (amplitude, frequency) :: t =>
      let i := amplitude * divider in
      if Qle_bool frequency 0 then Throw "Invalid frequency"
      else
        x <- skin_model w (escale (i * i / 2) dc) frequency i temperature ;;
        rest <- skin_harmonics w dc temperature divider t ;;
        Ok ((x, frequency) :: rest)
  end.

(** WindingSkinEffectLosses.cpp:174-209
    [calculate_skin_effect_losses_per_meter], its second component *)
Definition skin_per_meter (w : winding) (i : current) (temperature divider : Q)
  : outcome (list (Q * Q)) :=
  dc <- per_meter w temperature ;;
  match c_harmonics i with
  | None => Throw "Current is missing harmonics"
  | Some (amplitudes, frequencies) =>
      if negb (List.length amplitudes =? List.length frequencies)%nat
      then Throw "Harmonics amplitudes and frequencies size mismatch"
      else skin_harmonics w dc temperature divider (tl (combine amplitudes frequencies))
  end.

(** the zero frequency goes first, then each harmonic times a length
    (WindingSkinEffectLosses.cpp:257-265, WindingProximityEffectLosses.cpp:294-313) *)
Definition over_length (length : Q) (l : list (Q * Q)) : list (Q * Q) :=
  (0, 0) :: map (fun '(x, f) => (f, x * length)) l.
Definition sum_losses (l : list (Q * Q)) : Q := fold_left (fun a '(_, x) => a + x) l 0.

Definition set_skin (s : list (Q * Q)) (e : element) : element :=
  mkElement (e_name e) (e_ohmic e) (Some s) (e_proximity e).
Definition set_proximity (s : list (Q * Q)) (e : element) : element :=
  mkElement (e_name e) (e_ohmic e) (e_skin e) (Some s).

(** the current of a winding, missing ones refused
    (WindingSkinEffectLosses.cpp:244-249, 296-304) *)
Definition current_of (op : operating_point) (w : nat) : outcome current :=
  match nth_error op w with
  | Some (Some i) => Ok i
  | _ => Throw "Missing current excitation for winding"
  end.
Definition wire_of (c : coil) (w : nat) : outcome winding :=
  match nth_error (windings c) w with
  | Some x => Ok x
  | None => UB "windings out of range"
  end.
(** a length that is not a number would make the total NaN (line 339) *)
Definition length_of (t : turn) : outcome Q :=
  match t_length t with Some l => Ok l | None => Throw "NaN found in total skin effect losses" end.
Definition number (d : ext) : outcome Q :=
  match d with Some q => Ok q | None => Throw "NaN found in total skin effect losses" end.

(** WindingSkinEffectLosses.cpp:237-268; [op] is the pruned operating point *)
Fixpoint skin_loop (c : coil) (op : operating_point) (temperature : Q)
    (l : list turn) (es : list element) (ds : list ext) : outcome (list element * Q) :=
  match l with
  | [] => Ok ([], 0)
  | t :: l' =>
      match es, ds with
      | e :: es', d :: ds' =>
          w <- winding_index c (t_winding t) ;;
          x <- wire_of c w ;;
          i <- current_of op w ;;
          dv <- number d ;;
          len <- length_of t ;;
          h <- skin_per_meter x i temperature dv ;;
          o <- skin_loop c op temperature l' es' ds' ;;
          Ok (set_skin (over_length len h) e :: fst o, sum_losses (over_length len h) + snd o)
      | _, _ => UB "currentDividerPerTurn[turnIndex] out of range"
      end
  end.

(** WindingSkinEffectLosses.cpp:280-284: the divider of a parallel is that of
    its last turn *)
Fixpoint divider_of (c : coil) (l : list turn) (ds : list ext) (w p : nat) : option ext :=
  match l, ds with
  | t :: l', d :: ds' =>
      match divider_of c l' ds' w p with
      | Some x => Some x
      | None =>
          match winding_index c (t_winding t) with
          | Ok w' => if Nat.eqb w' w && (t_parallel t =? Z.of_nat p)%Z then Some d else None
          | _ => None
          end
      end
  | _, _ => None
  end.

(** [acc[k] += l[k]] for every k below the size of l
    (WindingSkinEffectLosses.cpp:314-316, WindingLosses.cpp:67-69, 81-83) *)
Fixpoint accumulate (acc : list (Q * Q)) (l : list (Q * Q)) : outcome (list (Q * Q)) :=
  match acc, l with
  | _, [] => Ok acc
  | [], _ :: _ => UB "losses per harmonic out of range"
  | (f, a) :: acc', (_, x) :: l' => r <- accumulate acc' l' ;; Ok ((f, a + x) :: r)
  end.
Definition zeros (l : list (Q * Q)) : list (Q * Q) := map (fun '(f, _) => (f, 0)) l.

(** WindingSkinEffectLosses.cpp:291-317: the leads of one winding *)
Fixpoint lead_loop (c : coil) (op : operating_point) (temperature : Q) (length : table Q)
    (l : list turn) (ds : list ext) (x : winding) (w : nat) (ps : list nat)
    (acc : option (list (Q * Q))) : outcome (option (list (Q * Q))) :=
  match ps with
  | [] => Ok acc
  | p :: ps' =>
      if Qle_bool (length w p) 0 then lead_loop c op temperature length l ds x w ps' acc
      else
        i <- current_of op w ;;
        match divider_of c l ds w p with
        | None => Throw "has connection copper but no turns to take its current divider from"
        | Some d =>
            dv <- number d ;;
            h <- skin_per_meter x i temperature dv ;;
            let hl := map (fun '(y, f) => (f, y * length w p)) h in
            a <- accumulate (match acc with Some a => a | None => zeros hl end) hl ;;
            lead_loop c op temperature length l ds x w ps' (Some a)
        end
  end.

(** WindingSkinEffectLosses.cpp:287-333; gives the elements of the windings and
    the losses of all leads *)
Fixpoint leads_loop (c : coil) (op : operating_point) (temperature : Q) (length : table Q)
    (l : list turn) (ds : list ext) (ws : list winding) (w : nat) (es : list element)
  : outcome (list element * Q) :=
  match ws, es with
  | x :: ws', e :: es' =>
      a <- lead_loop c op temperature length l ds x w (seq 0 (w_parallels x)) None ;;
      o <- leads_loop c op temperature length l ds ws' (S w) es' ;;
      match a with
      | None => Ok (e :: fst o, snd o)
      | Some h => Ok (set_skin ((0, 0) :: h) e :: fst o, sum_losses h + snd o)
      end
  | _, _ => Ok (es, 0)
  end.

(** WindingSkinEffectLosses.cpp:213-344 [calculate_skin_effect_losses].
    [prune] is Inputs::prune_harmonics with the threshold.  [has_waveform] is
    the test of lines 226-230. *)
Definition skin_losses (c : coil) (prune : operating_point -> outcome operating_point)
    (has_waveform : current -> bool) (temperature : Q) (o : output) : outcome output :=
  match turns c with
  | None => Throw "Winding does not have turns description"
  | Some l =>
      match excitations o with
      | [] => Throw "Operating point has no excitations for skin effect losses"
      | None :: _ => Throw "Primary excitation has no current for skin effect losses"
      | Some i :: _ =>
          if negb (has_waveform i) then Throw "Input has no waveform"
          else
            op <- prune (excitations o) ;;
            t <- skin_loop c op temperature l (per_turn o) (divider_of_turn o) ;;
            length <- connection_length c ;;
            ws <- leads_loop c op temperature length l (divider_of_turn o) (windings c) 0 (per_winding o) ;;
            Ok (mkOutput (fst t) (per_layer o) (per_section o) (fst ws)
                  (eadd (total o) (Some (snd t + snd ws)))
                  (resistance_of_turn o) (resistance_of_winding o) (divider_of_turn o) (excitations o))
      end
  end.

(** ** Proximity effect *)

(** WindingProximityEffectLosses.cpp:276-313: half of the turn at each crossing *)
Definition proximity_of_turn (len : Q) (f : list (Q * Q) * option (list (Q * Q)))
  : outcome (list (Q * Q)) :=
  match snd f with
  | None => Ok (over_length len (fst f))
  | Some second =>
      if negb (List.length second =? List.length (fst f))%nat
      then Throw "Primary and secondary crossing harmonics do not match"
      else Ok ((0, 0) :: map (fun '((x, fr), (y, _)) => (fr, x * (len / 2) + y * (len / 2)))
                         (combine (fst f) second))
  end.

(** WindingProximityEffectLosses.cpp:193-316 *)
Fixpoint proximity_loop (c : coil) (l : list turn) (i : nat) (es : list element)
  : outcome (list element * Q) :=
  match l with
  | [] => Ok ([], 0)
  | t :: l' =>
      match es with
      | [] => UB "windingLossesPerTurn[turnIndex] out of range"
      | e :: es' =>
          w <- winding_index c (t_winding t) ;;
          x <- wire_of c w ;;
          len <- length_of t ;;
          f <- field_losses i x ;;
          h <- proximity_of_turn len f ;;
          o <- proximity_loop c l' (S i) es' ;;
          Ok (set_proximity h e :: fst o, sum_losses h + snd o)
      end
  end.

(** WindingProximityEffectLosses.cpp:183-325 [calculate_proximity_effect_losses] *)
Definition proximity_losses (c : coil) (o : output) : outcome output :=
  match turns c with
  | None => Throw "Winding does not have turns description"
  | Some l =>
      t <- proximity_loop c l 0 (per_turn o) ;;
      Ok (mkOutput (fst t) (per_layer o) (per_section o) (per_winding o)
            (eadd (total o) (Some (snd t)))
            (resistance_of_turn o) (resistance_of_winding o) (divider_of_turn o) (excitations o))
  end.

(** ** Breakdown by layer, section and winding *)

(** WindingLosses.cpp:46-85: the turns of one element; [None] until the first *)
Fixpoint combine_loop (es : list element) (ks : list nat)
    (acc : option (ext * list (Q * Q) * list (Q * Q)))
  : outcome (option (ext * list (Q * Q) * list (Q * Q))) :=
  match ks with
  | [] => Ok acc
  | k :: ks' =>
      match nth_error es k with
      | None => UB "windingLossesPerTurn[turnIndex] out of range"
      | Some e =>
          match e_skin e, e_proximity e with
          | Some s, Some p =>
              let '(o0, s0, p0) := match acc with
                                   | Some a => a
                                   | None => (Some 0, zeros s, zeros p)
                                   end in
              s1 <- accumulate s0 s ;;
              p1 <- accumulate p0 p ;;
              combine_loop es ks' (Some (eadd o0 (e_ohmic e), s1, p1))
          | _, _ => UB "empty optional dereferenced"
          end
      end
  end.

(** WindingLosses.cpp:40-91 [combine_turn_losses_per_element]; with no turn at all
    the ohmic losses are never set (an indeterminate value) *)
Definition combine_element (es : list element) (ks : list nat) (name : string) : outcome element :=
  a <- combine_loop es ks None ;;
  match a with
  | None => Ok (mkElement name None (Some []) (Some []))
  | Some (o, s, p) => Ok (mkElement name o (Some s) (Some p))
  end.

(** Coil.cpp:5439-5473 [get_turns_indexes_by_layer] and the two like it *)
Fixpoint turns_where (f : turn -> outcome string) (l : list turn) (i : nat) (name : string)
  : outcome (list nat) :=
  match l with
  | [] => Ok []
  | t :: l' =>
      n <- f t ;;
      rest <- turns_where f l' (S i) name ;;
      Ok (if String.eqb n name then i :: rest else rest)
  end.
Definition the (o : option string) : outcome string :=
  match o with Some s => Ok s | None => Throw "bad_optional_access" end.

Fixpoint combine_all (f : turn -> outcome string) (l : list turn) (es : list element)
    (names : list string) : outcome (list element) :=
  match names with
  | [] => Ok []
  | n :: t =>
      ks <- turns_where f l 0 n ;;
      e <- combine_element es ks n ;;
      rest <- combine_all f l es t ;;
      Ok (e :: rest)
  end.

(** WindingLosses.cpp:93-142 [combine_turn_losses] *)
Definition combine_turn_losses (c : coil) (o : output) : outcome output :=
  match turns c with
  | None => Throw "bad_optional_access"
  | Some l =>
      ls <- combine_all (fun t => the (t_layer t)) l (per_turn o) (layers c) ;;
      ss <- combine_all (fun t => the (t_section t)) l (per_turn o) (sections c) ;;
      ws <- combine_all (fun t => Ok (t_winding t)) l (per_turn o) (map w_name (windings c)) ;;
      Ok (mkOutput (per_turn o) ls ss ws (total o)
            (resistance_of_turn o) (resistance_of_winding o) (divider_of_turn o) (excitations o))
  end.

(** WindingLosses.cpp:169-289 [calculate_losses], the choice of the field model
    (199-283) being part of [field_losses] *)
Definition calculate_losses (c : coil) (prune : operating_point -> outcome operating_point)
    (has_waveform : current -> bool) (op : operating_point) (temperature : Q) : outcome output :=
  o <- ohmic_losses c op temperature ;;
  o <- skin_losses c prune has_waveform temperature o ;;
  o <- proximity_losses c o ;;
  combine_turn_losses c o.

End Models.

(** WindingLosses.cpp:10-30 [get_total_winding_losses] of an element *)
Definition element_total (e : element) : ext :=
  eadd (e_ohmic e)
    (Some (match e_skin e with Some l => sum_losses l | None => 0 end +
           match e_proximity e with Some l => sum_losses l | None => 0 end)).
(** WindingLosses.cpp:32-38, of several *)
Definition elements_total (l : list element) : ext := esum (map element_total l).

(** ** Resistance matrix *)

(** a [std::map] of maps, as the list of the assignments made to it, last first *)
Definition matrix := list (string * string * ext).
Fixpoint at_entry (m : matrix) (a b : string) : option ext :=
  match m with
  | [] => None
  | (x, y, v) :: t => if String.eqb x a && String.eqb y b then Some v else at_entry t a b
  end.

(** the RMS currents of the windings: the masks of lines 327-328 and 360-362 hold
    the amplitudes, the square root of two times these *)
Definition mask (n i : nat) (x : Q) : list Q :=
  map (fun k => if Nat.eqb k i then x else 0) (seq 0 n).
Definition mask2 (n i j : nat) (x y : Q) : list Q :=
  map (fun k => if Nat.eqb k j then y else if Nat.eqb k i then x else 0) (seq 0 n).

(** WindingLosses.cpp:323-340 *)
Fixpoint diagonal (losses : list Q -> outcome Q) (n : nat) (names : list string) (i : nat) (m : matrix)
  : outcome matrix :=
  match names with
  | [] => Ok m
  | a :: t =>
      p <- losses (mask n i 1) ;;
      diagonal losses n t (S i) ((a, a, Some (p / (1 * 1))) :: m)
  end.

(** WindingLosses.cpp:371-374; [operator[]] makes an entry that is not there,
    which has no nominal value *)
Definition nominal (m : matrix) (a b : string) : outcome ext :=
  match at_entry m a b with Some v => Ok v | None => Throw "bad_optional_access" end.
Definition mutual (total : Q) (rii rjj : ext) (ratio : Q) : ext :=
  match rii, rjj with
  | Some a, Some b =>
      if Qeq_bool ratio 0 then None
      else Some ((total - a * (1 * 1) - b * (ratio * ratio)) / (2 * 1 * ratio))
  | _, _ => None
  end.

(** WindingLosses.cpp:349-382, the inner loop *)
Fixpoint off_row (losses : list Q -> outcome Q) (ratio : nat -> nat -> Q) (n : nat)
    (a : string) (i : nat) (names : list string) (j : nat) (m : matrix) : outcome matrix :=
  match names with
  | [] => Ok m
  | b :: t =>
      let r := ratio i j in
      p <- losses (mask2 n i j 1 r) ;;
      rii <- nominal m a a ;;
      rjj <- nominal m b b ;;
      let v := mutual p rii rjj r in
      off_row losses ratio n a i t (S j) ((b, a, v) :: (a, b, v) :: m)
  end.
(** WindingLosses.cpp:345-383, the outer loop *)
Fixpoint off_rows (losses : list Q -> outcome Q) (ratio : nat -> nat -> Q) (n : nat)
    (names : list string) (i : nat) (m : matrix) : outcome matrix :=
  match names with
  | [] => Ok m
  | a :: t =>
      m' <- off_row losses ratio n a i t (S i) m ;;
      off_rows losses ratio n t (S i) m'
  end.

(** WindingLosses.cpp:291-386 [calculate_resistance_matrix].  [losses] is the
    total of [calculate_losses] for RMS currents in the windings; [ratio i j] is
    the square root of the quotient of the self inductances i and j (a rational
    here, which the theorems take as it comes). *)
Definition resistance_matrix (losses : list Q -> outcome Q) (ratio : nat -> nat -> Q)
    (names : list string) : outcome matrix :=
  m <- diagonal losses (List.length names) names 0 [] ;;
  off_rows losses ratio (List.length names) names 0 m.
