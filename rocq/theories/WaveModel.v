(** Model of src/processors/WaveformProcessor.cpp: the waveforms handed to and
    produced by [WaveformProcessor].  Times and samples are exact rationals
    (finite doubles without rounding; NaN samples are refused by the code at
    922-926 and are not modelled).  [sin] is never evaluated: a function giving
    its values is a parameter of the two definitions that use it. *)
From Coq Require Import ZArith QArith Qabs List String Bool Arith.
From Verif Require Import Base.
Import ListNotations.
Open Scope Q_scope.
Open Scope outcome_scope.

(** [MAS::WaveformLabel], the enumerators the switches at 127-163, 315-360 and
    607-733 name. *)
Inductive wave_label :=
| TRIANGULAR | UNIPOLAR_TRIANGULAR | RECTANGULAR | UNIPOLAR_RECTANGULAR
| BIPOLAR_RECTANGULAR | BIPOLAR_TRIANGULAR | SINUSOIDAL | CUSTOM
| FLYBACK_PRIMARY | FLYBACK_SECONDARY | RECTANGULAR_WITH_DEADTIME
| SECONDARY_RECTANGULAR | SECONDARY_RECTANGULAR_WITH_DEADTIME
| TRIANGULAR_WITH_DEADTIME | FLYBACK_SECONDARY_WITH_DEADTIME.

Definition is_custom (l : wave_label) : bool :=
  match l with CUSTOM => true | _ => false end.

(** [MAS::Waveform]: samples, optional times, optional label. *)
Record waveform := mkWave {
  w_data : list Q;
  w_time : option (list Q);
  w_label : option wave_label
}.

(** [operator[]] on a vector: past the end is undefined behaviour. *)
Definition idx (l : list Q) (k : nat) : outcome Q :=
  match nth_error l k with
  | Some x => Ok x
  | None => UB "index out of range"
  end.

(** [get_time()->...] on an absent optional is undefined behaviour. *)
Definition time_of (w : waveform) : outcome (list Q) :=
  match w_time w with
  | Some t => Ok t
  | None => UB "no time"
  end.

(** [front()], [back()] of a vector. *)
Definition front (l : list Q) : outcome Q := idx l 0.
Definition back (l : list Q) : outcome Q := idx l (List.length l - 1).

(** [*max_element] and [*min_element]: the first largest and the first smallest
    element; dereferencing the end iterator of an empty vector is undefined. *)
Definition greatest (l : list Q) : outcome Q :=
  match l with
  | [] => UB "max_element of an empty vector"
  | x :: t => Ok (fold_left (fun m y => if Qlt_bool m y then y else m) t x)
  end.
Definition smallest (l : list Q) : outcome Q :=
  match l with
  | [] => UB "min_element of an empty vector"
  | x :: t => Ok (fold_left (fun m y => if Qlt_bool y m then y else m) t x)
  end.

(** The samples as (time, value) pairs, the form the loops below read them in.
    A time vector shorter than the data is read out of range. *)
Definition points (time data : list Q) : outcome (list (Q * Q)) :=
  if Nat.ltb (List.length time) (List.length data) then UB "time shorter than data"
  else Ok (combine time data).

(** WaveformProcessor.cpp:79-81 [is_size_power_of_2]. *)
Definition is_size_power_of_2 (data : list Q) : bool :=
  let n := N.of_nat (List.length data) in
  N.ltb 0 n && N.eqb (N.land n (n - 1)) 0.

(** WaveformProcessor.cpp:83-85 [round_up_size_to_power_of_2].  The exact value of
    [2^ceil(log2 size)]; the quotient of floating logarithms is not modelled. *)
Definition round_up_size_to_power_of_2 (data : list Q) : nat :=
  Nat.pow 2 (Nat.log2_up (List.length data)).

(** WaveformProcessor.cpp:87-96 [linear_spaced_array]: the accumulating loop. *)
Fixpoint spaced (val h : Q) (count : nat) : list Q :=
  match count with
  | O => []
  | S c => val :: spaced (val + h) h c
  end.
Definition linear_spaced_array (a b : Q) (N : nat) : list Q :=
  spaced a ((b - a) / inject_Z (Z.of_nat (N - 1))) N.

(** WaveformProcessor.cpp:122-124 [is_close_enough]. *)
Definition is_close_enough (x y error : Q) : bool := Qle_bool (Qabs (x - y)) error.

(** WaveformProcessor.cpp:126-164 [calculate_offset]. *)
Definition calculate_offset (w : waveform) (label : wave_label) : outcome Q :=
  let d := w_data w in
  let middle := mx <- greatest d ;; mn <- smallest d ;; Ok ((mx + mn) / 2) in
  match label with
  | TRIANGULAR => a <- idx d 0 ;; b <- idx d 1 ;; Ok ((a + b) / 2)
  | UNIPOLAR_TRIANGULAR => smallest d
  | RECTANGULAR => Ok 0
  | UNIPOLAR_RECTANGULAR => smallest d
  | BIPOLAR_RECTANGULAR => Ok 0
  | BIPOLAR_TRIANGULAR => Ok 0
  | SINUSOIDAL => middle
  | CUSTOM => middle
  | FLYBACK_PRIMARY => if Nat.eqb (List.length d) 4 then idx d 0 else idx d 1
  | FLYBACK_SECONDARY => idx d 3
  | RECTANGULAR_WITH_DEADTIME => Ok 0
  | SECONDARY_RECTANGULAR => Ok 0
  | SECONDARY_RECTANGULAR_WITH_DEADTIME => Ok 0
  | TRIANGULAR_WITH_DEADTIME => middle
  | FLYBACK_SECONDARY_WITH_DEADTIME => middle
  end.

(** WaveformProcessor.cpp:172-191 [is_waveform_imported], [is_waveform_sampled]. *)
Definition is_waveform_imported (w : waveform) (points : nat) : bool :=
  match w_time w with
  | None => false
  | Some _ => Nat.ltb points (List.length (w_data w))
  end.
Definition is_waveform_sampled (w : waveform) (points : nat) : bool :=
  match w_time w with
  | None => false
  | Some _ =>
      if is_waveform_imported w points then is_size_power_of_2 (w_data w)
      else Nat.eqb (List.length (w_data w)) points
  end.

(** WaveformProcessor.cpp:196-200: the trapezoids between consecutive points. *)
Fixpoint integral (integration : Q) (l : list (Q * Q)) : Q :=
  match l with
  | p :: ((q :: _) as rest) =>
      integral (integration + (snd q + snd p) / 2 * (fst q - fst p)) rest
  | _ => integration
  end.

(** WaveformProcessor.cpp:193-202 [calculate_waveform_average].  With no samples
    the loop bound [size() - 1] wraps around; with a zero period the C++ returns
    NaN or an infinity where the model has 0, a case the theorems exclude. *)
Definition calculate_waveform_average (w : waveform) : outcome Q :=
  time <- time_of w ;;
  last <- back time ;;
  first <- front time ;;
  if Nat.eqb (List.length (w_data w)) 0 then UB "empty data" else
  l <- points time (w_data w) ;;
  Ok (integral 0 l / (last - first)).

(** WaveformProcessor.cpp:219-237: a slope; [None] stands for the DBL_MAX and
    -DBL_MAX the code uses for a vertical segment and for "no previous slope". *)
Definition slope_between (p q : Q * Q) : option Q :=
  if Qeq_bool (fst q) (fst p) then None
  else Some ((snd q - snd p) / (fst q - fst p)).

(** WaveformProcessor.cpp:227-239: is the point where [slope] follows
    [previous] kept? *)
Definition emits (previous slope : option Q) : bool :=
  match slope, previous with
  | None, _ => true
  | _, None => true
  | Some s, Some p =>
      if Qlt_bool (1 # 1000000000) (Qabs p)
      then Qlt_bool (1 # 100) (Qabs ((s - p) / p))
      else Qlt_bool (1 # 1000000000) (Qabs s)
  end.

(** WaveformProcessor.cpp:217-244: the loop over the points, the last of which is
    the closing one. *)
Fixpoint compress_loop (previous : option Q) (l : list (Q * Q)) : list (Q * Q) :=
  match l with
  | p :: ((q :: _) as rest) =>
      let slope := slope_between p q in
      (if emits previous slope then [p] else []) ++ compress_loop slope rest
  | _ => []
  end.

(** WaveformProcessor.cpp:204-254 [compress_waveform]. *)
Definition compress_waveform (w : waveform) : outcome waveform :=
  let data := w_data w in
  if Nat.ltb (List.length data) 2 then Ok w else
  match w_time w with
  | None => Throw "bad optional access"
  | Some time =>
      if Nat.ltb (List.length time) 2 then Ok w else
      first <- idx data 0 ;;
      last <- idx time (List.length time - 1) ;;
      before <- idx time (List.length time - 2) ;;
      let closing := last + (last - before) in
      l <- points (time ++ [closing]) (data ++ [first]) ;;
      let kept := compress_loop None l ++ [(closing, first)] in
      Ok (mkWave (map snd kept) (Some (map fst kept)) (w_label w))
  end.

(** WaveformProcessor.cpp:292-297: the time of the segments whose middle is at or
    above the mid level. *)
Fixpoint time_on (mid timeOn : Q) (l : list (Q * Q)) : Q :=
  match l with
  | p :: ((q :: _) as rest) =>
      time_on mid
        (if Qle_bool mid ((snd p + snd q) / 2) then timeOn + (fst q - fst p) else timeOn) rest
  | _ => timeOn
  end.

(** WaveformProcessor.cpp:304-310: the fall-back that counts samples. *)
Definition share_of_samples (mid : Q) (data : list Q) : Q :=
  inject_Z (Z.of_nat (List.length (filter (fun x => Qle_bool mid x) data)))
    / inject_Z (Z.of_nat (List.length data)).

(** WaveformProcessor.cpp:270-311 [measure_duty_cycle_from_samples]. *)
Definition measure_duty_cycle_from_samples (w : waveform) : outcome Q :=
  let data := w_data w in
  if Nat.ltb (List.length data) 2 then Throw "need at least 2 points to measure a duty cycle" else
  maximum <- greatest data ;;
  minimum <- smallest data ;;
  let mid := (maximum + minimum) / 2 in
  match w_time w with
  | Some time =>
      if Nat.eqb (List.length time) (List.length data) then
        last <- back time ;;
        first <- front time ;;
        let total := last - first in
        if Qlt_bool 0 total
        then Ok (time_on mid 0 (combine time data) / total)
        else Ok (share_of_samples mid data)
      else Ok (share_of_samples mid data)
  | None => Ok (share_of_samples mid data)
  end.

(** WaveformProcessor.cpp:318: the fraction of the period a corner time is at.  A
    zero period, where the C++ yields NaN or an infinity, gives 0 here. *)
Definition corner (time : list Q) (t : Q) : outcome Q :=
  first <- front time ;; last <- back time ;; Ok ((t - first) / (last - first)).

(** WaveformProcessor.cpp:361-384: corner times of a shape of three, four or five
    points, rounded to two decimals; [None] when the shape is something else. *)
Definition duty_of_corners (w : waveform) (points : nat) : outcome (option Q) :=
  if is_waveform_sampled w points then Ok None else
  match w_time w with
  | None => Ok None
  | Some time =>
      if Nat.ltb (List.length time) 3 then Ok None else
      last <- back time ;;
      first <- front time ;;
      t0 <- idx time 0 ;; t1 <- idx time 1 ;; t2 <- idx time 2 ;;
      let total := last - first in
      if Qlt_bool 0 total then
        let size := List.length (w_data w) in
        if Nat.eqb size 3 then Ok (Some (roundFloat ((t1 - t0) / total) 2))
        else if Nat.eqb size 4 then Ok (Some (roundFloat (((t1 + t2) / 2 - t0) / total) 2))
        else if Nat.eqb size 5 then Ok (Some (roundFloat ((t2 - t0) / total) 2))
        else Ok None
      else Ok None
  end.

(** WaveformProcessor.cpp:313-397 [try_guess_duty_cycle]. *)
Definition try_guess_duty_cycle (w : waveform) (label : wave_label) (points : nat) : outcome Q :=
  let rest :=
    c <- duty_of_corners w points ;;
    match c with Some d => Ok d | None => measure_duty_cycle_from_samples w end in
  match label with
  | TRIANGULAR =>
      time <- time_of w ;;
      if Nat.eqb (List.length time) 3 then t <- idx time 1 ;; corner time t
      else if Nat.eqb (List.length time) 4
      then t1 <- idx time 1 ;; t2 <- idx time 2 ;; corner time ((t1 + t2) / 2)
      else rest
  | UNIPOLAR_TRIANGULAR => time <- time_of w ;; t <- idx time 1 ;; corner time t
  | RECTANGULAR => time <- time_of w ;; t <- idx time 2 ;; corner time t
  | UNIPOLAR_RECTANGULAR => time <- time_of w ;; t <- idx time 2 ;; corner time t
  | BIPOLAR_RECTANGULAR =>
      time <- time_of w ;; a <- idx time 2 ;; b <- idx time 3 ;;
      first <- front time ;; last <- back time ;; Ok ((b - a) / (last - first))
  | BIPOLAR_TRIANGULAR =>
      time <- time_of w ;; a <- idx time 1 ;; b <- idx time 2 ;;
      first <- front time ;; last <- back time ;; Ok ((b - a) / (last - first))
  | FLYBACK_PRIMARY | FLYBACK_SECONDARY =>
      time <- time_of w ;;
      if Nat.eqb (List.length time) 4 then t <- idx time 1 ;; corner time t
      else if Nat.eqb (List.length time) 5 then t <- idx time 2 ;; corner time t
      else rest
  | SINUSOIDAL => Ok (1 # 2)
  | _ => rest
  end.

(** The sum of a function of the samples and their indexes. *)
Fixpoint sum_indexed (i : nat) (f : nat -> Q -> Q) (l : list Q) : Q :=
  match l with
  | [] => 0
  | x :: t => f i x + sum_indexed (S i) f t
  end.

(** WaveformProcessor.cpp:415-469 [guess_sinusoidal_or_custom].  [sine i] is
    [sin(angle)] for the [i]-th sample, the angle being 447-448. *)
Definition guess_sinusoidal_or_custom (sine : nat -> Q) (w : waveform) : outcome wave_label :=
  let data := w_data w in
  if Nat.eqb (List.length data) 0 then Throw "waveform has no data" else
  maximum <- greatest data ;;
  minimum <- smallest data ;;
  let peakToPeak := maximum - minimum in
  let offset := (maximum + minimum) / 2 in
  let n := inject_Z (Z.of_nat (List.length data)) in
  let error := sum_indexed 0 (fun i x => Qabs (sine i * peakToPeak / 2 + offset - x)) data / n in
  let area := sum_indexed 0 (fun _ x => Qabs x) data / n in
  if Qeq_bool area 0 then Ok CUSTOM
  else if Qlt_bool (error / area) (5 # 100) then Ok SINUSOIDAL else Ok CUSTOM.

(** WaveformProcessor.cpp:484-567: the shape tests on a waveform with times, in
    order; the fourth one of the source repeats the third and is never reached.
    [None]: none of them holds.  Every index read is below the tested size; a
    time vector shorter than the data, which would be read out of range, is
    undefined behaviour in [try_guess_waveform_label]. *)
Definition shape_of (time d : list Q) (period : Q) (samples : nat) : option wave_label :=
  let t := fun k => nth k time 0 in
  let v := fun k => nth k d 0 in
  let near := fun a b => is_close_enough a b ((3 # 2) * period / inject_Z (Z.of_nat samples)) in
  let same := fun i j => Qeq_bool (v i) (v j) in
  let size := fun k => Nat.eqb (List.length d) k in
  let balanced := is_close_enough ((t 2%nat - t 0%nat) * v 2%nat + (t 4%nat - t 2%nat) * v 4%nat) 0 period in
  if size 4%nat && near (t 1%nat) (t 2%nat) && same 2%nat 3%nat && same 0%nat 3%nat
  then Some UNIPOLAR_TRIANGULAR
  else if size 5%nat && negb balanced && near (t 0%nat) (t 1%nat) && same 1%nat 2%nat
       && near (t 2%nat) (t 3%nat) && same 3%nat 4%nat && same 0%nat 4%nat
  then Some UNIPOLAR_RECTANGULAR
  else if size 5%nat && balanced && near (t 0%nat) (t 1%nat) && same 1%nat 2%nat
       && near (t 2%nat) (t 3%nat) && same 3%nat 4%nat && same 0%nat 4%nat
  then Some RECTANGULAR
  else if size 5%nat
       && is_close_enough ((t 1%nat - t 0%nat) * v 1%nat + (t 3%nat - t 2%nat) * v 3%nat) 0 period
       && near (t 1%nat) (t 2%nat) && same 0%nat 1%nat && near (t 3%nat) (t 4%nat)
       && same 2%nat 3%nat && same 0%nat 4%nat
  then Some RECTANGULAR
  else if size 10%nat && same 0%nat 1%nat && near (t 1%nat) (t 2%nat) && same 2%nat 3%nat
       && near (t 3%nat) (t 4%nat) && same 4%nat 5%nat && near (t 5%nat) (t 6%nat)
       && same 6%nat 7%nat && near (t 7%nat) (t 8%nat) && same 8%nat 9%nat && same 0%nat 9%nat
  then Some BIPOLAR_RECTANGULAR
  else if size 6%nat && same 0%nat 1%nat
       && near (t 2%nat - t 1%nat) (t 4%nat - t 3%nat) && same 2%nat 3%nat && same 4%nat 5%nat
       && same 0%nat 5%nat
  then Some BIPOLAR_TRIANGULAR
  else if size 5%nat && near (t 0%nat) (t 1%nat) && Qlt_bool (v 1%nat) (v 2%nat)
       && near (t 2%nat) (t 3%nat) && same 3%nat 4%nat && same 0%nat 4%nat
  then Some FLYBACK_PRIMARY
  else if size 5%nat && same 0%nat 1%nat && near (t 1%nat) (t 2%nat)
       && Qlt_bool (v 3%nat) (v 2%nat) && near (t 3%nat) (t 4%nat) && same 0%nat 4%nat
  then Some FLYBACK_SECONDARY
  else None.

(** WaveformProcessor.cpp:471-575 [try_guess_waveform_label]. *)
Definition try_guess_waveform_label (sine : nat -> Q) (w : waveform) (samples : nat)
    : outcome wave_label :=
  match w_label w with
  | Some l => Ok l
  | None =>
      c <- (if is_waveform_sampled w samples then compress_waveform w else Ok w) ;;
      let d := w_data c in
      period <- match w_time c with
                | Some time => last <- back time ;; first <- front time ;; Ok (last - first)
                | None => Ok 0
                end ;;
      if Nat.eqb (List.length d) 3 && Qeq_bool (nth 0 d 0) (nth 2 d 0) then Ok TRIANGULAR
      else match w_time c with
           | Some time =>
               if Nat.ltb (List.length time) (List.length d) then UB "time shorter than data"
               else match shape_of time d period samples with
                    | Some l => Ok l
                    | None => guess_sinusoidal_or_custom sine w
                    end
           | None => guess_sinusoidal_or_custom sine w
           end
  end.

(** WaveformProcessor.cpp:607-733: corner times and samples of each shape;
    [period] is [1 / frequency].  The sinusoid takes [sine i] for
    [sin(i * 2 pi / (samples - 1) + phase)]. *)
Definition shape (sine : nat -> Q) (label : wave_label)
    (peakToPeak period dutyCycle offset deadTime : Q) (samples : nat) : list Q * list Q :=
  let dc := dutyCycle * period in
  match label with
  | TRIANGULAR =>
      let max := peakToPeak / 2 + offset in
      let min := - peakToPeak / 2 + offset in
      ([0; dc; period], [min; max; min])
  | TRIANGULAR_WITH_DEADTIME =>
      let max := peakToPeak / 2 + offset in
      let min := - peakToPeak / 2 + offset in
      ([0; dc; period - deadTime; period], [min; max; min; 0])
  | UNIPOLAR_TRIANGULAR =>
      let max := peakToPeak + offset in
      let min := offset in
      ([0; dc; dc; period], [min; max; min; min])
  | RECTANGULAR =>
      let max := peakToPeak * (1 - dutyCycle) + offset in
      let min := - peakToPeak * dutyCycle + offset in
      ([0; 0; dc; dc; period], [min; max; max; min; min])
  | RECTANGULAR_WITH_DEADTIME =>
      let max := peakToPeak * (1 - dutyCycle) + offset in
      let min := - peakToPeak * dutyCycle + offset in
      ([0; 0; dc; dc; period - deadTime; period - deadTime; period],
       [0; max; max; min; min; 0; 0])
  | SECONDARY_RECTANGULAR =>
      let max := - peakToPeak * (1 - dutyCycle) + offset in
      let min := peakToPeak * dutyCycle + offset in
      ([0; 0; dc; dc; period], [min; max; max; min; min])
  | SECONDARY_RECTANGULAR_WITH_DEADTIME =>
      let max := - peakToPeak * (1 - dutyCycle) + offset in
      let min := peakToPeak * dutyCycle + offset in
      ([0; 0; dc; dc; period - deadTime; period - deadTime; period],
       [0; max; max; min; min; 0; 0])
  | UNIPOLAR_RECTANGULAR =>
      let max := peakToPeak + offset in
      let min := offset in
      let dc := cmin (1 # 2) dutyCycle * period in
      ([0; 0; dc; dc; period], [min; max; max; min; min])
  | BIPOLAR_RECTANGULAR =>
      let max := peakToPeak / 2 in
      let min := - peakToPeak / 2 in
      ([0;
        (25 # 100) * period - dc / 2; (25 # 100) * period - dc / 2;
        (25 # 100) * period + dc / 2; (25 # 100) * period + dc / 2;
        (75 # 100) * period - dc / 2; (75 # 100) * period - dc / 2;
        (75 # 100) * period + dc / 2; (75 # 100) * period + dc / 2;
        period],
       [0; 0; max; max; 0; 0; min; min; 0; 0])
  | BIPOLAR_TRIANGULAR =>
      let max := peakToPeak / 2 in
      let min := - peakToPeak / 2 in
      let dc := cmin (1 # 2) dutyCycle * period in
      ([0;
        (25 # 100) * period - dc / 2; (25 # 100) * period + dc / 2;
        (75 # 100) * period - dc / 2; (75 # 100) * period + dc / 2;
        period],
       [min; min; max; max; min; min])
  | FLYBACK_PRIMARY =>
      let max := peakToPeak + offset in
      let min := offset in
      ([0; 0; dc; dc; period], [0; min; max; 0; 0])
  | FLYBACK_SECONDARY =>
      let max := peakToPeak + offset in
      let min := offset in
      ([0; dc; dc; period; period], [0; 0; max; min; 0])
  | FLYBACK_SECONDARY_WITH_DEADTIME =>
      let max := peakToPeak + offset in
      let min := offset in
      ([0; dc; dc; period - deadTime; period - deadTime; period], [0; 0; max; min; 0; 0])
  | SINUSOIDAL =>
      (map (fun i => inject_Z (Z.of_nat i) * period / inject_Z (Z.of_nat (samples - 1))) (seq 0 samples),
       map (fun i => sine i * peakToPeak / 2 + offset) (seq 0 samples))
  | CUSTOM => ([], [])
  end.

(** WaveformProcessor.cpp:815-839: the value at time [s], from the first segment
    that contains it. *)
Fixpoint sample_at (s : Q) (l : list (Q * Q)) : option Q :=
  match l with
  | p :: ((q :: _) as rest) =>
      if Qeq_bool (fst q) (fst p) then
        if Qeq_bool s (fst p) then Some (snd p) else sample_at s rest
      else if Qle_bool (fst p) s && Qle_bool s (fst q) then
        let proportion := (s - fst p) / (fst q - fst p) in
        Some (snd p + proportion * (snd q - snd p))
      else sample_at s rest
  | _ => None
  end.

(** WaveformProcessor.cpp:812-844: the loop over the sampled times; the first one
    outside every segment stops it. *)
Fixpoint sample_all (l : list (Q * Q)) (times : list Q) : outcome (list Q) :=
  match times with
  | [] => Ok []
  | s :: rest =>
      match sample_at s l with
      | None => Throw "Error while sampling waveform in point"
      | Some v => vs <- sample_all l rest ;; Ok (v :: vs)
      end
  end.

(** WaveformProcessor.cpp:758-858 [calculate_sampled_waveform].  A frequency that
    rounds to 0 at nine decimals makes the sampled times infinite, which the loop
    then does not find: an error as soon as there are two points to sample. *)
Definition calculate_sampled_waveform (w : waveform) (frequency : Q)
    (numberPoints : option nat) (samples : nat) : outcome waveform :=
  let data := w_data w in
  if Nat.ltb (List.length data) 2 then Throw "Waveform must have at least 2 data points" else
  tf <- match w_time w with
        | None =>
            if Qle_bool frequency 0 then Throw "Invalid frequency"
            else if Qlt_bool frequency 1 then Throw "Frequency too small"
            else Ok (linear_spaced_array 0 (1 / roundFloat frequency 9) (List.length data), frequency)
        | Some time =>
            last <- back time ;;
            first <- front time ;;
            let period := last - first in
            if Qle_bool period 0 then Throw "Invalid waveform period"
            else Ok (time, 1 / period)
        end ;;
  let '(time, frequency) := tf in
  let n := match numberPoints with Some n => n | None => samples end in
  let n := if Nat.ltb n (List.length data) then
             if is_size_power_of_2 data then List.length data
             else round_up_size_to_power_of_2 data
           else n in
  if Qeq_bool (roundFloat frequency 9) 0 then Throw "Error while sampling waveform in point" else
  let sampledTime := linear_spaced_array 0 (1 / roundFloat frequency 9) (n + 1) in
  l <- points time data ;;
  sampledData <- sample_all l (removelast sampledTime) ;;
  Ok (mkWave sampledData (Some (removelast sampledTime)) (w_label w)).

(** WaveformProcessor.cpp:747 [std::rotate] on reversed iterators: the last [step]
    samples come first; a step beyond the size is an iterator past the end. *)
Definition rotate_right (step : Z) (data : list Q) : outcome (list Q) :=
  if (Z.of_nat (List.length data) <? step)%Z then UB "iterator past the end"
  else let k := (List.length data - Z.to_nat step)%nat in
       Ok (skipn k data ++ firstn k data).

(** WaveformProcessor.cpp:601-755 [create_waveform]. *)
Definition create_waveform (sine : nat -> Q) (label : wave_label)
    (peakToPeak frequency dutyCycle offset deadTime skew : Q) (samples : nat) : outcome waveform :=
  let period := 1 / frequency in
  let '(time, data) := shape sine label peakToPeak period dutyCycle offset deadTime samples in
  let w := mkWave data (Some time) (Some label) in
  if Qlt_bool 0 skew then
    sampled <- calculate_sampled_waveform w frequency None samples ;;
    let timeStep := period / inject_Z (Z.of_nat (List.length (w_data sampled))) in
    auxData <- rotate_right (qround (skew / timeStep)) (w_data sampled) ;;
    compress_waveform (mkWave auxData (w_time sampled) (w_label sampled))
  else Ok w.

(** [MAS::ProcessedWaveform], the members 581-599 and 914-972 read and write. *)
Record processed := mkProcessed {
  p_label : wave_label;
  p_peak_to_peak : option Q;
  p_offset : Q;
  p_duty_cycle : option Q;
  p_dead_time : option Q;
  p_average : option Q;
  p_peak : option Q;
  p_positive_peak : option Q;
  p_negative_peak : option Q
}.

(** WaveformProcessor.cpp:581-599 [create_waveform] from processed data. *)
Definition create_waveform_from (sine : nat -> Q) (p : processed) (frequency : Q)
    (samples : nat) : outcome waveform :=
  match p_peak_to_peak p with
  | None => Throw "Signal is missing peak to peak"
  | Some peakToPeak =>
      let dutyCycle := match p_duty_cycle p with Some d => d | None => 1 # 2 end in
      let deadTime := match p_dead_time p with Some d => d | None => 0 end in
      create_waveform sine (p_label p) peakToPeak frequency dutyCycle (p_offset p) deadTime 0 samples
  end.

(** [std::accumulate(begin, end, 0.0)]. *)
Definition accumulate (l : list Q) : Q := fold_left Qplus l 0.

(** WaveformProcessor.cpp:914-972 [calculate_basic_processed_data]. *)
Definition calculate_basic_processed_data (sine : nat -> Q) (w : waveform) (samples : nat)
    : outcome processed :=
  c <- (if is_waveform_sampled w samples then compress_waveform w else Ok w) ;;
  label <- try_guess_waveform_label sine c samples ;;
  let average :=
    if is_waveform_sampled w samples
    then Some (accumulate (w_data w) / inject_Z (Z.of_nat (List.length (w_data w))))
    else None in
  offset <- calculate_offset c label ;;
  positivePeak <- greatest (w_data c) ;;
  negativePeak <- smallest (w_data c) ;;
  let peakToPeak := positivePeak - negativePeak in
  let peakToPeak := match label with
                    | FLYBACK_PRIMARY | FLYBACK_SECONDARY => peakToPeak - offset
                    | _ => peakToPeak
                    end in
  dutyCycle <- (if is_custom label then try_guess_duty_cycle w label samples
                else try_guess_duty_cycle c label samples) ;;
  Ok (mkProcessed label (Some peakToPeak) offset (Some dutyCycle) None average
        (Some (cmax positivePeak (- negativePeak))) (Some positivePeak) (Some negativePeak)).
