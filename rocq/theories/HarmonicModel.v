(** Model of the choice of harmonics: get_main_harmonic_indexes (Utils.cpp),
    Inputs::prune_harmonics (Inputs.cpp), the meshing of a coil per harmonic
    (CoilMesher.cpp).  Rounding of doubles is not modelled; NaN is not. *)
From Coq Require Import ZArith QArith List String Bool.
From Verif Require Import Base.
Import ListNotations.
Open Scope outcome_scope.
Open Scope string_scope.
Open Scope list_scope.
Open Scope Q_scope.

(** MAS::Harmonics *)
Record harmonics := mkHarmonics { amplitudes : list Q; frequencies : list Q }.

(** MAS::SignalDescriptor: its harmonics; the harmonics Inputs works out from its
    waveform, if it has one (Utils.cpp:2250-2252, a call that can throw); what else
    is in it *)
Record signal := mkSignal {
  s_harmonics : option harmonics;
  s_derived : option (outcome harmonics);
  s_rest : string }.

(** MAS::OperatingPointExcitation *)
Record excitation := mkExcitation {
  x_frequency : Q;
  x_current : option signal;
  x_voltage : option signal;
  x_magnetizing : option signal;
  x_rest : string }.

(** the code walks over the amplitudes and reads the frequency at each index: the
    pairs, when there are as many frequencies *)
Definition lines (h : harmonics) : outcome (list (Q * Q)) :=
  if (List.length (frequencies h) <? List.length (amplitudes h))%nat
  then UB "get_frequencies()[harmonicIndex] out of range"
  else Ok (combine (amplitudes h) (frequencies h)).

Section Root.

(** [sqrt] of doubles *)
Variable root : Q -> Q.

(** amplitude times root of the frequency *)
Definition weight (l : Q * Q) : Q := fst l * root (snd l).

(** Utils.cpp:2344-2352 (and 2256-2263): the weight of the heaviest line after the
    first, or of the one asked for *)
Definition heaviest (l : list (Q * Q)) : Q :=
  fold_left (fun m x => cmax (weight x) m) (tl l) 0.
Definition reference_weight (main : option nat) (l : list (Q * Q)) : outcome Q :=
  match main with
  | None => Ok (heaviest l)
  | Some k => match nth_error l k with
              | Some x => Ok (weight x)
              | None => UB "get_amplitudes()[mainHarmonicIndex.value()] out of range"
              end
  end.

(** Utils.cpp:2354-2363 (and 2269-2279), from index i on *)
Fixpoint kept (limit : Q) (l : list (Q * Q)) (i : nat) : list nat :=
  match l with
  | [] => []
  | x :: t => if Qlt_bool (weight x) limit then kept limit t (S i) else i :: kept limit t (S i)
  end.

(** Utils.cpp:2343-2365 [get_main_harmonic_indexes] of harmonics *)
Definition main_indexes (threshold : Q) (main : option nat) (h : harmonics) : outcome (list nat) :=
  l <- lines h ;;
  m <- reference_weight main l ;;
  Ok (kept (m * threshold) (tl l) 1).

(** Inputs.cpp:1423-1441 [prune_harmonics] of a signal *)
Definition line_at (l : list (Q * Q)) (k : nat) : outcome (Q * Q) :=
  match nth_error l k with Some x => Ok x | None => UB "harmonic index out of range" end.
Fixpoint lines_at (l : list (Q * Q)) (ks : list nat) : outcome (list (Q * Q)) :=
  match ks with
  | [] => Ok []
  | k :: t => x <- line_at l k ;; r <- lines_at l t ;; Ok (x :: r)
  end.
Definition of_lines (l : list (Q * Q)) : harmonics := mkHarmonics (map fst l) (map snd l).
Definition with_harmonics (s : signal) (h : harmonics) : signal :=
  mkSignal (Some h) (s_derived s) (s_rest s).
Definition prune_signal (threshold : Q) (main : option nat) (s : signal) : outcome signal :=
  match s_harmonics s with
  | None => Throw "Signal has no harmonics to prune"
  | Some h =>
      ks <- main_indexes threshold main h ;;
      l <- lines h ;;
      r <- lines_at l (0%nat :: ks) ;;
      Ok (with_harmonics s (of_lines r))
  end.

(** Inputs.cpp:1409-1421 [prune_harmonics] of an excitation *)
Definition on_signal (f : signal -> outcome signal) (s : option signal) : outcome (option signal) :=
  match s with None => Ok None | Some x => y <- f x ;; Ok (Some y) end.
Definition prune_excitation (threshold : Q) (main : option nat) (x : excitation) : outcome excitation :=
  c <- on_signal (prune_signal threshold main) (x_current x) ;;
  v <- on_signal (prune_signal threshold main) (x_voltage x) ;;
  m <- on_signal (prune_signal threshold main) (x_magnetizing x) ;;
  Ok (mkExcitation (x_frequency x) c v m (x_rest x)).

(** ** An operating point

    The code treats currents, magnetizing currents and voltages with three copies
    of the same statements, interleaved winding by winding; here they are treated
    one after the other, which can only change which exception comes first. *)

(** Inputs.cpp:1448-1460: all the signals, when each excitation has one with
    harmonics *)
Fixpoint all_harmonics (l : list (option signal)) : option (list harmonics) :=
  match l with
  | [] => Some []
  | Some s :: t =>
      match s_harmonics s, all_harmonics t with
      | Some h, Some r => Some (h :: r)
      | _, _ => None
      end
  | None :: _ => None
  end.

(** Inputs.cpp:1474-1479: indexes not there yet are added, each with its frequency
    in the winding that asked for it first *)
Fixpoint add_kept (l : list (Q * Q)) (ks : list nat) (acc : list (nat * Q)) : outcome (list (nat * Q)) :=
  match ks with
  | [] => Ok acc
  | k :: t =>
      if existsb (fun p => Nat.eqb (fst p) k) acc then add_kept l t acc
      else x <- line_at l k ;; add_kept l t (acc ++ [(k, snd x)])
  end.
Fixpoint collect (threshold : Q) (main : option nat) (hs : list harmonics) (acc : list (nat * Q))
  : outcome (list (nat * Q)) :=
  match hs with
  | [] => Ok acc
  | h :: t =>
      ks <- main_indexes threshold main h ;;
      l <- lines h ;;
      a <- add_kept l ks acc ;;
      collect threshold main t a
  end.

(** Inputs.cpp:1523-1537: [std::sort] by the index, all of them different *)
Fixpoint insert (x : nat * Q) (l : list (nat * Q)) : list (nat * Q) :=
  match l with
  | [] => [x]
  | y :: t => if (fst x <? fst y)%nat then x :: y :: t else y :: insert x t
  end.
Definition sorted_pairs (l : list (nat * Q)) : list (nat * Q) := fold_right insert [] l.

(** Inputs.cpp:1517-1550 *)
Definition pruned_lines (keep : list (nat * Q)) (l : list (Q * Q)) : outcome (list (Q * Q)) :=
  x <- line_at l 0 ;;
  Ok (x :: map (fun p => match nth_error l (fst p) with Some y => y | None => (0, snd p) end) keep).
Fixpoint prune_each (keep : list (nat * Q)) (ss : list (option signal)) : outcome (list (option signal)) :=
  match ss with
  | [] => Ok []
  | Some s :: t =>
      match s_harmonics s with
      | None => UB "bad_optional_access"
      | Some h =>
          l <- lines h ;;
          r <- pruned_lines keep l ;;
          rest <- prune_each keep t ;;
          Ok (Some (with_harmonics s (of_lines r)) :: rest)
      end
  | None :: _ => UB "bad_optional_access"
  end.
Definition prune_signals (threshold : Q) (main : option nat) (ss : list (option signal))
  : outcome (list (option signal)) :=
  match all_harmonics ss with
  | None => Ok ss
  | Some hs =>
      keep <- collect threshold main hs [] ;;
      prune_each (sorted_pairs keep) ss
  end.

Fixpoint rebuild (xs : list excitation) (c v m : list (option signal)) : list excitation :=
  match xs, c, v, m with
  | x :: xs', c1 :: c', v1 :: v', m1 :: m' =>
      mkExcitation (x_frequency x) c1 v1 m1 (x_rest x) :: rebuild xs' c' v' m'
  | _, _, _, _ => []
  end.

(** Inputs.cpp:1443-1637 [prune_harmonics] of an operating point *)
Definition prune_operating_point (threshold : Q) (main : option nat) (xs : list excitation)
  : outcome (list excitation) :=
  c <- prune_signals threshold main (map x_current xs) ;;
  m <- prune_signals threshold main (map x_magnetizing xs) ;;
  v <- prune_signals threshold main (map x_voltage xs) ;;
  Ok (rebuild xs c v m).

(** ** Meshing *)

(** Utils.cpp:2218-2278 [get_main_harmonic_indexes] of the current of an
    excitation: harmonics are worked out when missing, and a current without AC
    content keeps none *)
Definition current_indexes (threshold : Q) (main : option nat) (x : excitation) : outcome (list nat) :=
  match x_current x with
  | None => Throw "Missing current"
  | Some s =>
      h <- (match s_harmonics s, s_derived s with
            | Some h, _ => Ok h
            | None, Some d => d
            | None, None => Throw "Missing harmonics"
            end) ;;
      l <- lines h ;;
      m <- reference_weight main l ;;
      if Qeq_bool m 0 then Ok [] else Ok (kept (m * threshold) (tl l) 1)
  end.

(** Utils.cpp:2280-2292: the union over the windings, first come first *)
Fixpoint add_new (ks acc : list nat) : list nat :=
  match ks with
  | [] => acc
  | k :: t => if existsb (Nat.eqb k) acc then add_new t acc else add_new t (acc ++ [k])
  end.
Fixpoint union_indexes (threshold : Q) (main : option nat) (xs : list excitation) (acc : list nat)
  : outcome (list nat) :=
  match xs with
  | [] => Ok acc
  | x :: t => ks <- current_indexes threshold main x ;; union_indexes threshold main t (add_new ks acc)
  end.

(** CoilMesher.cpp:45-53 *)
Definition has_fundamental (x : excitation) : bool :=
  match x_current x with
  | Some s => match s_harmonics s with
              | Some h => match frequencies h with _ :: f :: _ => Qlt_bool 0 f | _ => false end
              | None => false
              end
  | None => false
  end.

(** CoilMesher.cpp:34-67 [get_common_harmonic_indexes]; the factor of line 61 is 1
    (CoilMesher.h:30).  The recursion of line 62 is given fuel: what it does when
    there is never an end is run out of stack. *)
Fixpoint common_indexes (fuel : nat) (threshold : Q) (xs : list excitation) : outcome (list nat) :=
  match fuel with
  | O => OutOfFuel
  | S fuel' =>
      ks <- union_indexes threshold None xs [] ;;
      match ks with
      | [] => Ok (if existsb has_fundamental xs then [1%nat] else [])
      | _ =>
          match xs with
          | [] => UB "get_excitations_per_winding()[0] out of range"
          | x :: _ =>
              match x_current x with
              | None => Throw "Primary excitation current is missing harmonics in Coil Mesher"
              | Some s =>
                  match s_harmonics s with
                  | None => Throw "Primary excitation current is missing harmonics in Coil Mesher"
                  | Some h =>
                      if (List.length (amplitudes h) <? List.length ks)%nat
                      then common_indexes fuel' (threshold * 3) xs
                      else Ok ks
                  end
              end
          end
      end
  end.

End Root.

(** MAS::FieldPoint and MAS::Field *)
Record point := mkPoint { pt_x : Q; pt_y : Q; pt_value : Q; pt_turn : nat }.
Record field := mkField { f_frequency : Q; f_data : list point }.

(** a [std::map<size_t, Field>]; [operator[]] puts an empty field where there is
    none *)
Definition field_map := list (nat * field).
Definition no_field : field := mkField 0 [].
Fixpoint find_field (m : field_map) (k : nat) : option field :=
  match m with
  | [] => None
  | (i, f) :: t => if Nat.eqb i k then Some f else find_field t k
  end.
Fixpoint set_field (m : field_map) (k : nat) (f : field) : field_map :=
  match m with
  | [] => [(k, f)]
  | (i, g) :: t => if Nat.eqb i k then (i, f) :: t else (i, g) :: set_field t k f
  end.
Definition get_field (m : field_map) (k : nat) : field :=
  match find_field m k with Some f => f | None => no_field end.

(** CoilMesher.cpp:370-376, 492-498: the frequency of the harmonic in the first
    excitation that has it *)
Fixpoint frequency_of (xs : list excitation) (k : nat) : outcome Q :=
  match xs with
  | [] => Ok 0
  | x :: t =>
      match x_current x with
      | None => UB "optional without a value dereferenced"
      | Some s =>
          match s_harmonics s with
          | None => Throw "bad_optional_access"
          | Some h => match nth_error (frequencies h) k with
                      | Some f => Ok f
                      | None => frequency_of t k
                      end
          end
      end
  end.
(** CoilMesher.cpp:368-381 (with the check of 377-379) and 490-500 (without) *)
Fixpoint empty_fields (check : bool) (xs : list excitation) (ks : list nat) (m : field_map)
  : outcome field_map :=
  match ks with
  | [] => Ok m
  | k :: t =>
      f <- frequency_of xs k ;;
      if check && Qeq_bool f 0 then Throw "0 frequency found in Coil Mesher"
      else empty_fields check xs t (set_field m k (mkField f []))
  end.

Definition append_points (m : field_map) (k : nat) (ps : list point) : field_map :=
  set_field m k (mkField (f_frequency (get_field m k)) (f_data (get_field m k) ++ ps)).

(** a turn, as the mesher sees it: its winding, what the model of its wire gives
    for it (inducing, induced; calls that can throw), its share of the current *)
Record mesh_turn := mkMeshTurn {
  mt_winding : nat;
  mt_inducing : outcome (list point);
  mt_induced : outcome (list point);
  mt_share : Q }.

Definition scaled (q : Q) (p : point) : point :=
  mkPoint (pt_x p) (pt_y p) (pt_value p * q) (pt_turn p).

(** the harmonics of the current of the winding of a turn (lines 392-396, 508-512) *)
Definition turn_harmonics (xs : list excitation) (w : nat) : outcome harmonics :=
  match nth_error xs w with
  | None => UB "get_excitations_per_winding()[windingIndex] out of range"
  | Some x =>
      match x_current x with
      | None => Throw "Current for winding is missing harmonics in Coil Mesher"
      | Some s => match s_harmonics s with
                  | None => Throw "Current for winding is missing harmonics in Coil Mesher"
                  | Some h => Ok h
                  end
      end
  end.

(** CoilMesher.cpp:388-416: points of one turn, to each harmonic its own *)
Fixpoint induce (h : harmonics) (share direction : Q) (ps : list point) (ks : list nat) (m : field_map)
  : field_map :=
  match ks with
  | [] => m
  | k :: t =>
      let peak := match nth_error (amplitudes h) k with Some a => a | None => 0 end in
      induce h share direction ps t
        (append_points m k (map (scaled (peak * share * direction)) ps))
  end.
Fixpoint inducing_turns (xs : list excitation) (direction : nat -> outcome Q) (ks : list nat)
    (ts : list mesh_turn) (m : field_map) : outcome field_map :=
  match ts with
  | [] => Ok m
  | t :: rest =>
      h <- turn_harmonics xs (mt_winding t) ;;
      ps <- mt_inducing t ;;
      d <- (match ks with [] => Ok 0 | _ => direction (mt_winding t) end) ;;
      inducing_turns xs direction ks rest (induce h (mt_share t) d ps ks m)
  end.

(** CoilMesher.cpp:504-521 *)
Definition induced_everywhere (ps : list point) (ks : list nat) (m : field_map) : field_map :=
  fold_left (fun m k => append_points m k ps) ks m.
Fixpoint induced_turns (xs : list excitation) (ks : list nat) (ts : list mesh_turn) (m : field_map)
  : outcome field_map :=
  match ts with
  | [] => Ok m
  | t :: rest =>
      h <- turn_harmonics xs (mt_winding t) ;;
      ps <- mt_induced t ;;
      induced_turns xs ks rest (induced_everywhere ps ks m)
  end.

(** CoilMesher.cpp:417-422, 523-528: [for (i = 0; i < m.size(); ++i)] over the
    keys, where reading [m[i]] adds an empty field when there is none, so that the
    bound moves *)
Fixpoint in_order (fuel : nat) (i : nat) (m : field_map) (acc : list field) : outcome (list field) :=
  match fuel with
  | O => OutOfFuel
  | S fuel' =>
      if (i <? List.length m)%nat then
        let f := get_field m i in
        let m' := match find_field m i with Some _ => m | None => m ++ [(i, no_field)] end in
        in_order fuel' (S i) m' (match f_data f with [] => acc | _ => acc ++ [f] end)
      else Ok acc
  end.

(** CoilMesher.cpp:308-317: the directions of the currents *)
Definition directions (custom : option (list Q)) (windings : nat) (w : nat) : outcome Q :=
  match custom with
  | Some l => match nth_error l w with Some d => Ok d | None => UB "currentDirectionPerWinding out of range" end
  | None => if (w =? 0)%nat then Ok 1
            else if (w <? windings)%nat then Ok (-1)
            else UB "currentDirectionPerWinding out of range"
  end.

(** CoilMesher.cpp:299-443 [generate_mesh_inducing_coil], after the ohmic losses
    (which give the shares) and the choice of models.  [fuel'] is for the loop over
    the map. *)
Definition mesh_inducing (root : Q -> Q) (fuel fuel' : nat) (threshold : Q) (custom : option (list Q))
    (windings : nat) (xs : list excitation) (ts : list mesh_turn) : outcome (list field) :=
  ks <- common_indexes root fuel threshold xs ;;
  m <- empty_fields true xs ks [] ;;
  m <- inducing_turns xs (directions custom windings) ks ts m ;;
  fs <- in_order fuel' 0 m [] ;;
  match fs with
  | [] => Throw "no harmonic produced inducing-field data"
  | _ => Ok fs
  end.

(** CoilMesher.cpp:445-530 [generate_mesh_induced_coil] *)
Definition mesh_induced (root : Q -> Q) (fuel fuel' : nat) (threshold : Q)
    (xs : list excitation) (ts : list mesh_turn) : outcome (list field) :=
  ks <- common_indexes root fuel threshold xs ;;
  m <- empty_fields false xs ks [] ;;
  m <- induced_turns xs ks ts m ;;
  in_order fuel' 0 m [].
