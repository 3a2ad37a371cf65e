(** Model of the harmonic analysis in src/processors/WaveformProcessor.cpp: the
    in-place transform (lines 37-72), the harmonics read from it (861-901), the
    choice of main harmonics (98-120) and the figures computed from them
    (999-1090).  Doubles are real numbers, [kWaveformPi] is pi, and
    [std::complex<double>] is a pair of reals; rounding is not modelled. *)
From Coq Require Import Reals List Arith NArith Bool String.
From Verif Require Import Base.
Import ListNotations.
Open Scope R_scope.
Open Scope outcome_scope.

(** [std::complex<double>]. *)
Record complex := mkC { re : R; im : R }.

Definition Cadd (x y : complex) : complex := mkC (re x + re y) (im x + im y).
Definition Csub (x y : complex) : complex := mkC (re x - re y) (im x - im y).
Definition Cmul (x y : complex) : complex :=
  mkC (re x * re y - im x * im y) (re x * im y + im x * re y).
Definition Copp (x : complex) : complex := mkC (- re x) (- im x).
Definition Cone : complex := mkC 1 0.
Definition Czero : complex := mkC 0 0.
(** [std::abs] of a complex number. *)
Definition Cabs (x : complex) : R := sqrt (re x * re x + im x * im x).

Declare Scope C_scope.
Delimit Scope C_scope with C.
Infix "+" := Cadd : C_scope.
Infix "-" := Csub : C_scope.
Infix "*" := Cmul : C_scope.
Notation "- x" := (Copp x) : C_scope.

(** The vector being transformed, by index; the size is passed beside it, and an
    index beyond it is undefined behaviour. *)
Definition array := nat -> complex.
Definition upd (x : array) (i : nat) (v : complex) : array :=
  fun j => if Nat.eqb j i then v else x j.

(** WaveformProcessor.cpp:48-53: the butterflies of one position in every block,
    [a] stepping by the block size [n]. *)
Fixpoint butterflies (fuel size n k : nat) (T : complex) (a : nat) (x : array) : outcome array :=
  match fuel with
  | O => OutOfFuel
  | S f =>
      if Nat.ltb a size then
        let b := (a + k)%nat in
        if Nat.ltb b size then
          let t := (x a - x b)%C in
          let x1 := upd x a (x a + x b)%C in
          let x2 := upd x1 b (t * T)%C in
          butterflies f size n k T (a + n)%nat x2
        else UB "index out of range"
      else Ok x
  end.

(** WaveformProcessor.cpp:47-55: the loop over the positions [l] in a block; [T]
    is multiplied by [phiT] at each. *)
Fixpoint positions (todo l size n k : nat) (phiT T : complex) (x : array) : outcome array :=
  match todo with
  | O => Ok x
  | S rest =>
      y <- butterflies (S size) size n k T l x ;;
      positions rest (S l) size n k phiT (T * phiT)%C y
  end.

(** WaveformProcessor.cpp:42-56: halving the blocks until they are single. *)
Fixpoint stages (fuel size k : nat) (phiT : complex) (x : array) : outcome array :=
  match fuel with
  | O => OutOfFuel
  | S f =>
      if Nat.ltb 1 k then
        let n := k in
        let k2 := Nat.div2 k in
        let phi2 := (phiT * phiT)%C in
        y <- positions k2 0 size n k2 phi2 Cone x ;;
        stages f size k2 phi2 y
      else Ok x
  end.

(** WaveformProcessor.cpp:61-66: the five swaps that reverse 32 bits.  Only the
    last left shift can leave the 32 bits, and is cut to them. *)
Definition reverse_bits (b : N) : N :=
  let b := N.lor (N.shiftr (N.land b 0xaaaaaaaa) 1) (N.shiftl (N.land b 0x55555555) 1) in
  let b := N.lor (N.shiftr (N.land b 0xcccccccc) 2) (N.shiftl (N.land b 0x33333333) 2) in
  let b := N.lor (N.shiftr (N.land b 0xf0f0f0f0) 4) (N.shiftl (N.land b 0x0f0f0f0f) 4) in
  let b := N.lor (N.shiftr (N.land b 0xff00ff00) 8) (N.shiftl (N.land b 0x00ff00ff) 8) in
  N.lor (N.shiftr b 16) (N.land (N.shiftl b 16) 0xffffffff).

(** WaveformProcessor.cpp:60-67: the index [a] is exchanged with. *)
Definition partner (m a : nat) : nat :=
  N.to_nat (N.shiftr (reverse_bits (N.of_nat a)) (N.of_nat (32 - m))).

(** WaveformProcessor.cpp:67-71. *)
Definition exchange (m : nat) (x : array) (a : nat) : array :=
  let b := partner m a in
  if Nat.ltb a b then
    let t := x a in
    let x1 := upd x a (x b) in
    upd x1 b t
  else x.

(** WaveformProcessor.cpp:37-72 [fft].  [size] is taken as an [unsigned int].
    [log2] is exact on powers of two, the only sizes the caller lets through.  An
    empty vector converts minus infinity to an integer, and a single element
    shifts by 32 bits: both are undefined. *)
Definition fft (length : nat) (x : array) : outcome array :=
  let size := N.to_nat (N.modulo (N.of_nat length) 4294967296) in
  let thetaT := PI / INR size in
  let phiT := mkC (cos thetaT) (- sin thetaT) in
  if Nat.ltb size 2 then UB "conversion or shift out of range" else
  y <- stages (S size) size size phiT x ;;
  let m := Nat.log2 size in
  Ok (fold_left (exchange m) (seq 0 size) y).

(** [MAS::Harmonics]. *)
Record harmonics := mkHarmonics { h_amplitudes : list R; h_frequencies : list R }.

(** WaveformProcessor.cpp:98-106, without a main harmonic: the greatest amplitude
    times root of frequency, from the second harmonic on. *)
Definition weight_of (h : harmonics) (i : nat) : R :=
  nth i (h_amplitudes h) 0 * sqrt (nth i (h_frequencies h) 0).
Definition heaviest (h : harmonics) : R :=
  fold_left (fun m i => Rmax (weight_of h i) m) (seq 1 (List.length (h_amplitudes h) - 1)) 0.

(** WaveformProcessor.cpp:98-120 [get_main_harmonic_indexes].  The indexes come in
    increasing order, so the search for a repeated one (115) never finds it. *)
Definition get_main_harmonic_indexes (h : harmonics) (threshold : R) : list nat :=
  filter (fun i => if Rlt_dec (weight_of h i) (heaviest h * threshold) then false else true)
         (seq 1 (List.length (h_amplitudes h) - 1)).

(** WaveformProcessor.cpp:869-871: the size test. *)
Definition power_of_2 (n : nat) : bool :=
  N.eqb (N.land (N.of_nat n) (N.of_nat n - 1)) 0.

(** WaveformProcessor.cpp:874-881: amplitudes and frequencies of a transform. *)
Definition read_harmonics (n : nat) (X : array) (frequency : R) : harmonics :=
  mkHarmonics
    (Cabs (mkC (re (X 0%nat) / INR n) (im (X 0%nat) / INR n)) ::
     map (fun i => Cabs (mkC (2 * re (X i) / INR n) (2 * im (X i) / INR n))) (seq 1 (Nat.div2 n - 1)))
    (map (fun i => frequency * INR i) (seq 0 (Nat.div2 n))).

(** WaveformProcessor.cpp:884-898: only the direct component, the fundamental and
    the main harmonics are left. *)
Definition trim (h : harmonics) (threshold : R) : outcome harmonics :=
  match h_amplitudes h, h_frequencies h with
  | a0 :: a1 :: _, f0 :: f1 :: _ =>
      let kept := filter (fun i => negb (Nat.eqb i 0 || Nat.eqb i 1)) (get_main_harmonic_indexes h threshold) in
      Ok (mkHarmonics (a0 :: a1 :: map (fun i => nth i (h_amplitudes h) 0) kept)
                      (f0 :: f1 :: map (fun i => nth i (h_frequencies h) 0) kept))
  | _, _ => UB "index out of range"
  end.

(** WaveformProcessor.cpp:861-901 [calculate_harmonics_data].  [timed] says whether
    the waveform has times; [samples] is the configured number of points. *)
Definition calculate_harmonics_data (data : list R) (timed : bool) (frequency : R)
    (trimHarmonics : bool) (threshold : R) (samples : nat) : outcome harmonics :=
  let n := List.length data in
  let imported := timed && Nat.ltb samples n in
  if Nat.ltb 0 n && negb (power_of_2 n) then Throw "Data vector size is not a power of 2" else
  X <- fft n (fun j => mkC (nth j data 0) 0) ;;
  let h := read_harmonics n X frequency in
  if imported && trimHarmonics then trim h threshold else Ok h.

(** The sum of a list, in order ([std::reduce] may take another order, which makes
    no difference over the reals). *)
Definition Rsum (l : list R) : R := fold_right Rplus 0 l.

(** WaveformProcessor.cpp:1034-1048 and 1052-1066: the effective frequency over
    the harmonics of index [first] and above. *)
Definition effective_frequency (first : nat) (h : harmonics) : R :=
  let l := skipn first (combine (h_amplitudes h) (h_frequencies h)) in
  let dividend := Rsum (map (fun p => (fst p * fst p) * (snd p * snd p)) l) in
  let divisor := Rsum (map (fun p => fst p * fst p) l) in
  if Rlt_dec 0 divisor then sqrt (dividend / divisor) else 0.

(** WaveformProcessor.cpp:1069-1075. *)
Definition rms_of (data : list R) : R :=
  sqrt (Rsum (map (fun x => x * x) data) / INR (List.length data)).

(** WaveformProcessor.cpp:1014-1016: the average of equally spaced samples. *)
Definition average_of (data : list R) : R := Rsum data / INR (List.length data).

(** WaveformProcessor.cpp:1078-1088. *)
Definition thd_of (h : harmonics) : R :=
  let divisor := nth 1 (h_amplitudes h) 0 in
  if Rlt_dec 0 divisor
  then sqrt (Rsum (map (fun a => a * a) (skipn 2 (h_amplitudes h)))) / divisor
  else 0.
