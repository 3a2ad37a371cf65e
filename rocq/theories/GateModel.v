(** Model of further filters of the advisers: src/advisers/MagneticFilterDatasheet.cpp
    (published limits), MagneticFilter.cpp:159-271 (solid insulation of the wires),
    MagneticFilterArea.cpp (area product and room for the wires), the needed window of
    MagneticFilterEnergyCost.cpp:92-133, and the scores shared between filters
    (support/Utils.cpp:178-206, MagneticFilterInternal.h:372-385,
    MagneticFilterGeometry.cpp:170-202).  Exact arithmetic; a score is [None] when it
    is NaN. *)
From Coq Require Import ZArith QArith Qabs List String Bool Arith.
From Verif Require Import Base FilterModel.
Import ListNotations.
Open Scope outcome_scope.
Open Scope Q_scope.
Open Scope string_scope.

(** ** Published limits *)

(** MAS::MagneticDatasheetElectrical: what the filter reads. *)
Record entry := mkEntry {
  e_turns : option Q; e_rated : option (list Q); e_peak : option Q; e_ac : option Q; e_dc : option Q }.

(** What is processed of the excitation of a winding: RMS and peak of its current, RMS
    and offset of its voltage. *)
Record excitation := mkExcitation {
  x_rms : option Q; x_peak : option Q; x_ac : option Q; x_dc : option Q }.

(** MagneticFilterDatasheet.cpp:25-30 [datasheet_headroom]. *)
Definition headroom (limit operating : Q) : Q :=
  if Qle_bool limit 0 then 1
  else let h := (limit - operating) / limit in
       if Qlt_bool h 0 then 0 else if Qlt_bool 1 h then 1 else h.

(** std::min_element. *)
Definition least (x : Q) (l : list Q) : Q := fold_left (fun m y => if Qlt_bool y m then y else m) l x.

(** MagneticFilterDatasheet.cpp:36-77 [select_electrical_entry]; [turns] are those of
    the first winding.  The largest double stands above every rated current: the first
    one found is taken. *)
Fixpoint matching (turns : Q) (l : list entry) : option entry :=
  match l with
  | nil => None
  | e :: rest =>
      match e_turns e with
      | Some n => if Qlt_bool (Qabs (n - turns)) (1 # 2) then Some e else matching turns rest
      | None => matching turns rest
      end
  end.
Fixpoint conservative (l : list entry) (best : option (Q * entry)) : option (Q * entry) :=
  match l with
  | nil => best
  | e :: rest =>
      match e_rated e with
      | Some (x :: xs) =>
          let smallest := least x xs in
          match best with
          | Some (s, _) => conservative rest (if Qlt_bool smallest s then Some (smallest, e) else best)
          | None => conservative rest (Some (smallest, e))
          end
      | _ => conservative rest best
      end
  end.
Definition select_entry (first : entry) (others : list entry) (turns : option Q) : entry :=
  match others with
  | nil => first
  | _ =>
      let l := first :: others in
      match match turns with Some n => matching n l | None => None end with
      | Some e => e
      | None => match conservative l None with Some (_, e) => e | None => first end
      end
  end.

(** The state of the evaluation: valid, worstScore, anyLimitChecked. *)
Record tally := mkTally { t_valid : bool; t_worst : Q; t_checked : bool }.
Definition gate (limit operating : Q) (t : tally) : tally :=
  mkTally (t_valid t && Qle_bool operating limit) (cmin (t_worst t) (headroom limit operating)) true.
Definition gate_if (limit operating : option Q) (t : tally) : tally :=
  match limit, operating with Some l, Some o => gate l o t | _, _ => t end.

(** MagneticFilterDatasheet.cpp:123-128: the rated current of a winding. *)
Definition rated_limit (rated : option (list Q)) (index : nat) : option Q :=
  match rated with
  | Some [x] => Some x
  | Some l => nth_error l index
  | None => None
  end.

(** MagneticFilterDatasheet.cpp:113-170, the windings of an operating point: the tally
    and the largest peak, if there is any. *)
Fixpoint windings_gate (e : entry) (l : list excitation) (index : nat) (t : tally) (peak : option Q)
    : tally * option Q :=
  match l with
  | nil => (t, peak)
  | x :: rest =>
      let t := gate_if (rated_limit (e_rated e) index) (x_rms x) t in
      let peak := match e_peak e, x_peak x with
                  | Some _, Some p => Some (cmax (match peak with Some m => m | None => 0 end) p)
                  | _, _ => peak
                  end in
      let t := gate_if (e_ac e) (x_ac x) t in
      let t := gate_if (e_dc e) (option_map Qabs (x_dc x)) t in
      windings_gate e rest (S index) t peak
  end.
(** MagneticFilterDatasheet.cpp:106-180, all operating points. *)
Fixpoint points_gate (e : entry) (l : list (list excitation)) (t : tally) : tally :=
  match l with
  | nil => t
  | p :: rest =>
      let r := windings_gate e p 0 t None in
      points_gate e rest (gate_if (e_peak e) (snd r) (fst r))
  end.

(** MagneticFilterDatasheet.cpp:81-190 [MagneticFilterDatasheetLimits::evaluate_magnetic];
    [None] for a part without manufacturer, datasheet or electrical entries. *)
Definition datasheet_filter (sheet : option (list entry)) (turns : option Q) (points : list (list excitation))
    : bool * Q :=
  match sheet with
  | Some (first :: others) =>
      let t := points_gate (select_entry first others turns) points (mkTally true 1 false) in
      if t_checked t then (t_valid t, t_worst t) else (true, 1)
  | _ => (true, 1)
  end.

(** ** Solid insulation of the wires *)

(** MAS::InsulationWireCoating, the wire with the coating of its strand, and
    WireSolidInsulationRequirements. *)
Record coating := mkCoating {
  k_breakdown : option Q; k_grade : option Z; k_layers : option Z; k_insulated : bool }.
Inductive wire_type := ROUND_WIRE | LITZ | RECTANGULAR_WIRE | FOIL | PLANAR.
Record wire := mkWire { w_type : wire_type; w_coating : option coating; w_strand : option coating }.
Record insulation := mkInsulation {
  i_breakdown : Q; i_minimum_grade : option Z; i_minimum_layers : option Z;
  i_maximum_grade : option Z; i_maximum_layers : option Z }.

(** MagneticFilter.cpp:221-233 and 251-263, the two chains of [else if]. *)
Definition chain (grade layers : option Z) (k : coating) (wrong : Z -> Z -> bool) : bool :=
  match grade, k_grade k with
  | Some g, Some have => negb (wrong have g)
  | _, _ =>
      match layers, k_layers k with
      | Some n, Some have => negb (wrong have n)
      | _, _ => negb (is_some layers || is_some grade)
      end
  end.

(** MagneticFilter.cpp:194-271 [evaluate_magnetic(winding, requirements)]. *)
Definition wire_filter (w : wire) (r : insulation) : outcome (bool * Q) :=
  match w_type w with
  | FOIL | PLANAR => Ok (true, 0)
  | _ =>
      match w_coating w with
      | None => Ok (false, 0)
      | Some outer =>
          inner <- match w_type w with
                   | LITZ => match w_strand w with Some k => Ok k | None => Throw "bad optional access" end
                   | _ => Ok outer
                   end ;;
          match k_breakdown inner with
          | None => Ok (false, 0)
          | Some v =>
              if Qlt_bool v (i_breakdown r) then Ok (false, 0)
              else if negb (chain (i_minimum_grade r) (i_minimum_layers r) inner (fun have need => Z.ltb have need))
              then Ok (false, 0)
              else if (is_some (i_maximum_layers r) || is_some (i_maximum_grade r)) && k_insulated outer
              then Ok (false, 0)
              else if negb (chain (i_maximum_grade r) (i_maximum_layers r) inner (fun have most => Z.ltb most have))
              then Ok (false, 0)
              else Ok (true, if Qlt_bool 0 (i_breakdown r) then i_breakdown r - v else 0)
          end
      end
  end.

(** MagneticFilter.cpp:174-181, the windings of one combination. *)
Fixpoint combination (ws : list wire) (rs : list insulation) (valid : bool) (total : Q) : outcome (bool * Q) :=
  match ws with
  | nil => Ok (valid, total)
  | w :: ws =>
      match rs with
      | nil => UB "solidInsulationRequirementsForWires[windingIndex]"
      | r :: rs => x <- wire_filter w r ;; combination ws rs (valid && fst x) (total + snd x)
      end
  end.
(** MagneticFilter.cpp:159-192 [MagneticFilterSolidInsulationRequirements]; the
    combinations of all repetitions and patterns, in order. *)
Fixpoint insulation_filter (ws : list wire) (combinations : list (list insulation)) : outcome (bool * Q) :=
  match combinations with
  | nil => Ok (false, 0)
  | c :: rest =>
      x <- combination ws c true 0 ;;
      if fst x then Ok (true, cmax 0 (snd x)) else insulation_filter ws rest
  end.

(** ** Area product *)

(** The core: its shape and material by name, and of its first window and column what
    the filter reads. *)
Record core := mkCore {
  c_shape : string; c_material : string; c_toroidal : bool;
  c_width : Q;                          (* of the core *)
  c_window : option (Q * Q * Q);        (* width, height and area of the window, when there is one *)
  c_radial : option Q; c_column : Q }.

(** MagneticFilterArea.cpp:115-137: how much of the window a bobbin leaves; [bobbin] is
    Bobbin::get_filling_factor. *)
Definition filling (bobbin : Q -> Q -> Q) (c : core) (w h : Q) : Q :=
  if negb (c_toroidal c) then bobbin w h
  else match c_radial c with
       | Some r =>
           let outer := c_width c / 2 in
           let inner := outer - r in
           let ratio := if Qlt_bool 0 inner then inner / outer else 1 # 2 in
           (55 # 100) + (15 # 100) * ratio
       | None => 6 # 10
       end.

(** MagneticFilterArea.cpp:141-164 and MagneticFilterEnergyCost.cpp:107-130: the window
    less the margin, [None] when the margin blocks it all; [angle] is
    wound_distance_to_angle. *)
Definition usable_window (angle : Q -> Q -> Q) (margin : Q) (c : core) (w h area : Q) : outcome (option Q) :=
  if Qlt_bool 0 margin then
    if negb (c_toroidal c) then
      Ok (Some (if Qlt_bool w h then area - w * margin else area - h * margin))
    else match c_radial c with
         | None => Throw "bad optional access"
         | Some r =>
             if Qlt_bool (r / 2) margin then Ok None
             else Ok (Some (area * ((360 - angle margin (r / 2)) / 360)))
         end
  else Ok (Some area).

(** What the filter remembers, by name: filling factors of shapes and flux densities of
    materials. *)
Record memory := mkMemory { m_filling : string -> option Q; m_flux : string -> option Q }.
Definition put (f : string -> option Q) (k : string) (v : Q) : string -> option Q :=
  fun x => if String.eqb x k then Some v else f x.

(** An operating point: what was worked out of its power beforehand, and the share of
    copper in the wire at its frequency. *)
Record load := mkLoad { l_power : Q; l_wire : Q; l_index : nat }.

Definition dummy : string := "Dummy".
(** _magneticFluxDensityReference. *)
Definition reference_flux : Q := 18 # 100.

(** MagneticFilterArea.cpp:174-241, the operating points; [flux c i] is the flux density
    of the reference losses at point i, [None] when it cannot be had.  The result is
    the largest product required, [None] for a candidate turned down. *)
Fixpoint loads_loop (flux : core -> nat -> option Q) (c : core) (filling : Q) (l : list load)
    (required : Q) (m : memory) : outcome (option Q * memory) :=
  match l with
  | nil => Ok (Some required, m)
  | o :: rest =>
      let found :=
        if String.eqb (c_material c) dummy then Some (reference_flux, m)
        else match m_flux m (c_material c) with
             | Some b => Some (b, m)
             | None => match flux c (l_index o) with
                       | Some b => Some (b, mkMemory (m_filling m) (put (m_flux m) (c_material c) b))
                       | None => None
                       end
             end in
      match found with
      | None => Ok (None, m)
      | Some (b, m) =>
          if Qeq_bool b 0 then Throw "flux density cannot be 0 or NaN"
          else if Qeq_bool (l_wire o * filling) 0 || Qeq_bool (l_power o) 0
          then Throw "areaProductRequired cannot be 0 or NaN"
          else loads_loop flux c filling rest (cmax required (l_power o / (l_wire o * filling * b))) m
      end
  end.

(** MagneticFilterArea.cpp:104-250 [MagneticFilterAreaProduct::evaluate_magnetic]. *)
Definition area_product_filter (bobbin : Q -> Q -> Q) (angle : Q -> Q -> Q) (flux : core -> nat -> option Q)
    (printed : bool) (margin : Q) (loads : list load) (c : core) (m : memory) : outcome (bool * Q * memory) :=
  match c_window c with
  | None => Ok (false, 0, m)
  | Some (w, h, area) =>
      let fm := if printed then (1, m)
                else match m_filling m (c_shape c) with
                     | Some f => (f, m)
                     | None => let f := filling bobbin c w h in
                               (f, mkMemory (put (m_filling m) (c_shape c) f) (m_flux m))
                     end in
      u <- usable_window angle margin c w h area ;;
      match u with
      | None => Ok (false, 0, snd fm)
      | Some usable =>
          let product := usable * c_column c in
          r <- loads_loop flux c (fst fm) loads 0 (snd fm) ;;
          match fst r with
          | None => Ok (false, 0, snd r)
          | Some required =>
              if Qlt_bool 1 required then Throw "maximumAreaProductRequired cannot be larger than 1 (probably)"
              else Ok (Qle_bool (required * threshold_validity) product, Qabs (product - required), snd r)
          end
      end
  end.

(** ** Room for the wires *)

(** A winding (its wire is a foil or not; outer sizes, turns and parallels) and a section. *)
Record coiled := mkCoiled { g_foil : bool; g_width : Q; g_height : Q; g_turns : Z; g_parallels : Z }.
Record section := mkSection { s_polar : bool; s_size : Q * Q }.

(** MagneticFilterArea.cpp:287-312 [MagneticFilterAreaNoParallels]. *)
Definition no_parallels_filter (angle : Q -> Q -> Q) (most : Z) (g : coiled) (s : section) : bool :=
  if g_foil g && Z.ltb most (g_parallels g * g_turns g) then false
  else Qlt_bool (g_width g) (fst (s_size s)) &&
       Qlt_bool (if s_polar s then angle (g_height g) (g_width g) else g_height g) (snd (s_size s)).

(** MagneticFilterArea.cpp:337-364 [MagneticFilterAreaWithParallels]. *)
Definition with_parallels_filter (g : coiled) (sections : positive) (area : Q) (allow : bool) : bool * Q :=
  let needed := g_width g * g_height g * (inject_Z (g_parallels g * g_turns g) / inject_Z (Zpos sections)) in
  if Qlt_bool needed area then (true, 1)
  else if allow then
    let extra := (needed - area) / area in
    if Qlt_bool extra (1 # 2) then (true, 1 - extra) else (false, 0)
  else (false, 0).

(** MagneticFilterArea.cpp:314-335, all windings, each judged by its first section;
    [pi] is the double. *)
Definition section_area (pi : Q) (s : section) : Q :=
  if s_polar s then pi * (fst (s_size s) * fst (s_size s)) * snd (s_size s) / 360
  else fst (s_size s) * snd (s_size s).
Fixpoint parallels_loop (pi : Q) (l : list (coiled * list section)) (valid : bool) (total : Q) : outcome (bool * Q) :=
  match l with
  | nil => Ok (valid, total)
  | (g, ss) :: rest =>
      match ss with
      | nil => UB "sections[0]"
      | s :: more =>
          let x := with_parallels_filter g (Pos.of_succ_nat (List.length more)) (section_area pi s) false in
          parallels_loop pi rest (valid && fst x) (total + snd x)
      end
  end.
Definition parallels_filter (pi : Q) (l : list (coiled * list section)) : outcome (bool * score) :=
  r <- parallels_loop pi l true 0 ;; Ok (fst r, mean (snd r) (List.length l)).

(** ** Scores shared between filters *)

(** support/Utils.cpp [_scorings]: by filter and name. *)
Definition scores := nat -> string -> option Q.

(** Magnetic.cpp:44-51 [get_reference]. *)
Definition reference_of (r : option string) : string :=
  match r with Some s => s | None => "Custom component made with OpenMagnetic" end.

(** support/Utils.cpp:178-194 [add_scoring]. *)
Definition add_scoring (t : scores) (name : string) (filter : nat) (x : score) : scores :=
  match x with
  | None => t
  | Some v => if Qeq_bool v (-1) then t
              else fun f n => if Nat.eqb f filter && String.eqb n name then Some v else t f n
  end.
(** support/Utils.cpp:196-205 [get_scoring]. *)
Definition get_scoring (t : scores) (name : string) (filter : nat) : option Q := t filter name.

(** A candidate: its reference and what each filter makes of it by itself. *)
Record candidate := mkCandidate { d_reference : option string; d_own : nat -> score; d_volume : Q }.

(** MagneticFilterInternal.h:372-385 [cached_or_compute_scoring]. *)
Definition cached_or_compute (t : scores) (c : candidate) (filter : nat) : score :=
  match get_scoring t (reference_of (d_reference c)) filter with
  | Some x => Some x
  | None => d_own c filter
  end.

(** MagneticFilterGeometry.cpp:170-175, 191-195 (losses times volume) and 183-189,
    197-202 (times the temperature rise as well). *)
Definition times (a b : score) : score :=
  match a, b with Some x, Some y => Some (x * y) | _, _ => None end.
Definition losses_times_volume (t : scores) (losses : nat) (c : candidate) : score :=
  times (cached_or_compute t c losses) (Some (d_volume c)).
Definition losses_times_volume_times_rise (t : scores) (losses rise : nat) (c : candidate) : score :=
  times (times (cached_or_compute t c losses) (Some (d_volume c))) (cached_or_compute t c rise).

(** MagneticAdviser.cpp:1203-1218, one filter over all candidates. *)
Definition score_all (filter : nat) (t : scores) (l : list candidate) : scores :=
  fold_left (fun t c => add_scoring t (reference_of (d_reference c)) filter (d_own c filter)) l t.
