(* C118, C119: the effective parameters of a core piece. *)
From Coq Require Import Reals List Bool String Lra Psatz.
From Verif Require Import ShapeModel ShapeProofs.
Import ListNotations.
Local Open Scope R_scope.
Local Open Scope string_scope.

(* ---------- Vocabulary ---------- *)

(* Numbers a user can work with: all positive, and the volume is length times area. *)
Definition consistent (p : parameters) : Prop :=
  0 < le p /\ 0 < ae p /\ 0 < ve p /\ 0 < amin p /\ ve p = le p * ae p.

(* A table of letters. *)
Fixpoint table (l : list (string * R)) : dims :=
  fun x => match l with
           | [] => None
           | (k, v) :: r => if String.eqb x k then Some v else table r x
           end.

(* The letters of a drawing that can be made: nothing negative, the window inside the piece. *)
Definition proportioned (s : shape) : Prop :=
  let d := dimensions s in
  0 <= dim d "D" <= dim d "B" /\ 0 <= dim d "C" /\
  match shape_family s with
  | FE | FETD | FEC | FEFD | FPQ => 0 <= dim d "F" <= dim d "E" /\ dim d "E" <= dim d "A"
  | FEL => 0 <= dim d "F" <= dim d "F2" /\ dim d "F" <= dim d "E" <= dim d "A"
  | FEI | FPQI => 0 <= dim d "F" <= dim d "E" /\ dim d "E" <= dim d "A" /\ 0 <= dim d "B2"
  | FC => 0 <= dim d "E" <= dim d "A"
  | FU => 0 <= dim d "E" /\ 0 <= dim d "H" /\ dim d "E" + dim d "H" <= dim d "A"
  | FUI => 0 <= dim d "E" /\ 0 <= dim d "H" /\ dim d "E" + dim d "H" <= dim d "A" /\ 0 <= dim d "B2"
  | FUT => 0 <= dim d "E" /\ 0 <= dim d "F" /\ dim d "E" + dim d "F" <= dim d "A"
  | FUR => 0 <= dim d "E" /\ 0 <= dim d "F" /\ 0 <= dim d "H" /\
           dim d "C" + dim d "H" <= dim d "A" /\ dim d "F" + dim d "H" <= dim d "A"
  | _ => True
  end.
(* A ring has only A, B and C, and B is its bore. *)
Definition ring_proportioned (s : shape) : Prop :=
  let d := dimensions s in 0 <= dim d "B" <= dim d "A" /\ 0 <= dim d "C".

(* Families where every section has a length and an area of its own. *)
Definition sectioned (s : shape) : Prop :=
  match shape_family s with FEP | FRM | FPM | FP => False | _ => True end.

Definition drawn (s : shape) : Prop :=
  match shape_family s with FT => ring_proportioned s | _ => proportioned s end.

(* ---------- C118 ---------- *)

Lemma constants_consistent : forall q p, from_constants q = Parameters p -> consistent p.
Proof.
  intros q p H. destruct (from_constants_ok q p H) as (A & B & M & ->).
  unfold consistent. cbn [le ae ve amin].
  assert (0 < constant1 q ^ 2) by (apply pow_lt, A).
  assert (0 < constant1 q ^ 3) by (apply pow_lt, A).
  assert (0 < constant2 q ^ 2) by (apply pow_lt, B).
  repeat split; try (apply div_pos; assumption); try assumption. field. lra.
Qed.

Lemma length_consistent : forall l a m p, from_length_and_area l a m = Parameters p -> consistent p.
Proof.
  intros l a m p H. destruct (from_length_ok _ _ _ _ H) as (A & B & C & ->).
  unfold consistent. cbn [le ae ve amin]. repeat split; try assumption. apply Rmult_lt_0_compat; assumption.
Qed.

(* Whatever the family, the drawing and the standard: parameters that are reported are
   positive, and the volume is the length times the area. *)
Theorem C118_parameters_consistent : forall std s p, process std s = Parameters p -> consistent p.
Proof.
  intros std s p H. destruct (process_parameters _ _ _ H) as (_ & _ & _ & G). clear H.
  destruct std; [exact (constants_consistent _ _ G)|].
  unfold process_63182 in G.
  destruct (shape_family s);
    repeat match goal with
           | H : (if ?b then _ else _) = Parameters _ |- _ => destruct b; try discriminate H
           end; exact (length_consistent _ _ _ _ G).
Qed.

(* The same for the core assembled from the piece, of any type, any material and any number of
   stacks, whatever the settings were. *)
Theorem C118_core_parameters_consistent : forall g c p,
  0 < stacking_factor g -> (1 <= stacks c)%nat -> effective c = None ->
  effective (snd (process_data g c)) = Some (Parameters p) -> consistent p.
Proof.
  intros g c p K N E H. unfold process_data in H. cbn [the_standard] in H.
  destruct (process (standard_of (core_material c)) (core_shape c)) as [q| | | |] eqn:P;
    cbn [snd effective on_parameters] in H; try discriminate H.
  2: { rewrite E in H. discriminate H. }
  injection H as <-.
  destruct (C118_parameters_consistent _ _ _ P) as (A & B & C & D & V).
  assert (S : 0 < INR (stacks c)) by (apply lt_0_INR; exact N).
  unfold consistent, scale_parameters, assemble, apply_stacking_factor. cbn [le ae ve amin].
  destruct (kind_of_core c); destruct (core_material c); cbn [le ae ve amin]; rewrite V;
    repeat split; try assumption; try ring;
    repeat (apply Rmult_lt_0_compat; try assumption; try lra).
Qed.

(* Refusals. An E piece with a depth, a post and legs of some height is refused exactly when
   its lateral legs or its yoke vanish, under both standards. *)
Lemma e_areas : forall d, 0 < dim d "C" -> 0 < dim d "F" ->
  dim d "E" < dim d "A" -> dim d "D" < dim d "B" ->
  forall x, In x (e_sections d) -> 0 < snd x.
Proof.
  intros d C F A B x I. unfold e_sections in I. cbn [In] in I.
  assert (X : 0 < 2 * dim d "C" * ((dim d "A" - dim d "E") / 2)) by nra.
  assert (Y : 0 < 2 * dim d "C" * (dim d "B" - dim d "D")) by nra.
  assert (Z : 0 < 2 * (dim d "F" / 2) * dim d "C") by nra.
  repeat (destruct I as [<- |I]; [cbn [snd]; lra|]). contradiction.
Qed.

Lemma e_lengths : forall d, 0 <= dim d "D" -> 0 <= dim d "F" <= dim d "E" -> dim d "E" <= dim d "A" ->
  dim d "D" <= dim d "B" -> forall x, In x (e_sections d) -> 0 <= fst x.
Proof.
  intros d D F A B x I. unfold e_sections in I. cbn [In] in I. pose proof PI_RGT_0 as P.
  repeat (destruct I as [<- |I]; [cbn [fst]; nra|]). contradiction.
Qed.

Lemma mean_accepts : forall ss, ss <> [] -> sound ss -> (exists x, In x ss /\ 0 < fst x) ->
  exists p, from_constants (whole ss) = Parameters p.
Proof.
  intros ss N H X. destruct (S_pos ss H X) as (A & B & C). destruct (whole_constants ss) as (E1 & E2).
  eexists. apply from_constants_accepts; [rewrite E1; exact B|rewrite E2; exact C|].
  unfold minimum_area, whole. cbn [areas]. apply minimum_pos; [destruct ss; [contradiction|discriminate]|].
  intros y I. apply in_map_iff in I. destruct I as [x [<- I]]. apply (H x I).
Qed.

Lemma mean_accepts_halves : forall ss, ss <> [] -> sound ss -> (exists x, In x ss /\ 0 < fst x) ->
  exists p, from_constants (halves ss) = Parameters p.
Proof.
  intros ss N H X. destruct (S_pos ss H X) as (A & B & C). destruct (halves_constants ss) as (E1 & E2).
  eexists. apply from_constants_accepts; [rewrite E1; lra|rewrite E2; lra|].
  unfold minimum_area, halves. cbn [areas]. apply minimum_pos; [destruct ss; [contradiction|discriminate]|].
  intros y I. apply in_map_iff in I. destruct I as [x [<- I]]. apply (H x I).
Qed.

Theorem C118_e_refused_iff : forall std t d,
  0 < dim d "C" -> 0 < dim d "F" <= dim d "E" -> 0 < dim d "D" ->
  (process std (mkshape FE t d) = Refused <-> dim d "A" <= dim d "E" \/ dim d "B" <= dim d "D") /\
  (dim d "E" < dim d "A" -> dim d "D" < dim d "B" ->
   exists p, process std (mkshape FE t d) = Parameters p).
Proof.
  intros std t d C F D.
  assert (P : process std (mkshape FE t d) = match std with
       | IEC_60205 => from_constants (whole (e_sections d))
       | IEC_63182 => process_63182 (mkshape FE t d) end) by (destruct std; apply process_plain; exact I).
  assert (Good : dim d "E" < dim d "A" -> dim d "D" < dim d "B" ->
                 exists p, process std (mkshape FE t d) = Parameters p).
  { intros A B. rewrite P.
    assert (S : sound (e_sections d)).
    { intros x J. split; [apply (e_lengths d)|apply (e_areas d)]; try assumption; lra. }
    assert (X : exists x, In x (e_sections d) /\ 0 < fst x).
    { eexists. split; [left; reflexivity|]. cbn [fst]. exact D. }
    destruct std.
    - apply mean_accepts; [discriminate|exact S|exact X].
    - unfold process_63182. cbn [shape_family dimensions].
      destruct (S_pos _ S X) as (P0 & P1 & _).
      change (total (map fst (e_sections d))) with (S0 (e_sections d)).
      change (total (map (fun x => fst x / snd x) (e_sections d))) with (S1 (e_sections d)).
      assert (M : 0 < minimum (map snd (e_sections d))).
      { apply minimum_pos; [discriminate|]. intros y J. apply in_map_iff in J.
        destruct J as [x [<- J]]. apply (S x J). }
      destruct (Rle_dec (minimum (map snd (e_sections d))) 0); [lra|].
      destruct (Req_EM_T (S1 (e_sections d)) 0); [lra|].
      eexists. apply from_length_accepts; [exact P0|apply div_pos; assumption|exact M]. }
  split; [|exact Good]. split.
  - intros H. destruct (Rle_dec (dim d "A") (dim d "E")) as [A|A]; [left; exact A|].
    destruct (Rle_dec (dim d "B") (dim d "D")) as [B|B]; [right; exact B|].
    destruct Good as [p G]; [lra|lra|]. rewrite H in G. discriminate G.
  - intros H. rewrite P.
    assert (M : minimum (map snd (e_sections d)) <= 0).
    { destruct H as [A|B].
      - apply Rle_trans with (2 * dim d "C" * ((dim d "A" - dim d "E") / 2)); [|nra].
        apply minimum_le. left. reflexivity.
      - apply Rle_trans with (2 * dim d "C" * (dim d "B" - dim d "D")); [|nra].
        apply minimum_le. right. left. reflexivity. }
    destruct std; [apply from_constants_refuses; exact M|].
    unfold process_63182. cbn [shape_family dimensions].
    destruct (Rle_dec (minimum (map snd (e_sections d))) 0); [reflexivity|contradiction].
Qed.

(* A U piece is refused exactly when a leg or the yoke vanishes. *)
Theorem C118_u_refused_iff : forall t d,
  0 < dim d "C" -> 0 <= dim d "E" -> 0 < dim d "D" -> d "H" = None ->
  (process IEC_60205 (mkshape FU t d) = Refused <-> dim d "A" <= dim d "E" \/ dim d "B" <= dim d "D") /\
  (dim d "E" < dim d "A" -> dim d "D" < dim d "B" ->
   exists p, process IEC_60205 (mkshape FU t d) = Parameters p).
Proof.
  intros t d C E D H.
  assert (P : process IEC_60205 (mkshape FU t d) = from_constants (halves (u_sections d)))
    by (apply (process_plain IEC_60205 (mkshape FU t d)); exact I).
  assert (L : u_legs d = ((dim d "A" - dim d "E") / 2, (dim d "A" - dim d "E") / 2)).
  { unfold u_legs, negligible. rewrite H. reflexivity. }
  rewrite P. unfold u_sections. rewrite L.
  set (w := (dim d "A" - dim d "E") / 2). set (h := dim d "B" - dim d "D").
  assert (Good : dim d "E" < dim d "A" -> dim d "D" < dim d "B" ->
                 exists p, from_constants (halves (u_like (2 * dim d "D") (dim d "E") h (dim d "C") w w)) = Parameters p).
  { intros A B. assert (W : 0 < w) by (unfold w; lra). assert (Hh : 0 < h) by (unfold h; lra).
    clearbody w h. pose proof PI_RGT_0 as PP.
    assert (Q1 : 0 < dim d "C" * w) by nra. assert (Q2 : 0 < dim d "C" * h) by nra.
    apply mean_accepts_halves; [discriminate| |].
    - intros x J. unfold u_like in J. cbn [In] in J.
      repeat (destruct J as [<- |J]; [cbn [fst snd]; split; nra|]). contradiction.
    - eexists. split; [left; reflexivity|]. cbn [fst]. lra. }
  split; [|exact Good]. split.
  - intros G. destruct (Rle_dec (dim d "A") (dim d "E")) as [A|A]; [left; exact A|].
    destruct (Rle_dec (dim d "B") (dim d "D")) as [B|B]; [right; exact B|].
    destruct Good as [p K]; [lra|lra|]. rewrite G in K. discriminate K.
  - intros G. apply from_constants_refuses. unfold minimum_area, halves. cbn [areas].
    destruct G as [A|B].
    + apply Rle_trans with (dim d "C" * w); [|unfold w; nra]. apply minimum_le. left. reflexivity.
    + apply Rle_trans with (dim d "C" * h); [|unfold h; nra]. apply minimum_le. right. left. reflexivity.
Qed.

(* A ring is refused exactly when its bore is not smaller than itself; its parameters are those
   of a uniform ring. *)
Theorem C118_ring_refused_iff : forall t d,
  0 < dim d "A" -> 0 <= dim d "B" -> 0 < dim d "C" ->
  (process IEC_60205 (mkshape FT t d) = Refused <-> dim d "A" <= dim d "B") /\
  (dim d "B" < dim d "A" -> exists p, process IEC_60205 (mkshape FT t d) = Parameters p /\
     le p = PI * (dim d "A" + dim d "B") / 2 /\
     ae p = (dim d "A" - dim d "B") / 2 * dim d "C" /\ amin p = ae p).
Proof.
  intros t d A B C. pose proof PI_RGT_0 as PP.
  rewrite (process_plain IEC_60205 (mkshape FT t d) I). cbn match.
  change (piece_parts (mkshape FT t d)) with (whole (t_sections d)).
  unfold from_constants, constant1, constant2, minimum_area, whole, t_sections, straight.
  cbn [contributions areas map fst snd total minimum smallest].
  set (l := 2 * PI * (dim d "B" / 2 + (dim d "A" - dim d "B") / 2 / 2)).
  set (a := (dim d "A" - dim d "B") / 2 * dim d "C").
  assert (L : 0 < l) by (unfold l; nra).
  assert (Sign : dim d "A" <= dim d "B" <-> a <= 0) by (unfold a; split; intros; nra).
  split.
  - rewrite Sign. split.
    + intros H. destruct (Rle_dec a 0) as [N|N]; [exact N|exfalso].
      assert (X : 0 < l / a) by (apply div_pos; lra).
      assert (Y : 0 < l / a ^ 2) by (apply div_pos; [lra|apply pow_lt; lra]).
      destruct (Rle_dec (l / a + 0) 0); [lra|]. destruct (Rle_dec (l / a ^ 2 + 0) 0); [lra|].
      discriminate H.
    + intros N. destruct (Rle_dec (l / a + 0) 0); [reflexivity|].
      destruct (Rle_dec (l / a ^ 2 + 0) 0); [reflexivity|].
      destruct (Rle_dec a 0); [reflexivity|contradiction].
  - intros G. assert (N : 0 < a) by (unfold a; nra).
    assert (X : 0 < l / a) by (apply div_pos; lra).
    assert (Y : 0 < l / a ^ 2) by (apply div_pos; [lra|apply pow_lt; lra]).
    destruct (Rle_dec (l / a + 0) 0); [lra|]. destruct (Rle_dec (l / a ^ 2 + 0) 0); [lra|].
    destruct (Rle_dec a 0); [lra|].
    eexists. split; [reflexivity|]. cbn [le ae amin].
    assert (La : l = PI * (dim d "A" + dim d "B") / 2) by (unfold l; field).
    repeat split.
    + rewrite <- La. field. lra.
    + field. lra.
    + field. lra.
Qed.

(* A drawing that satisfies the hypotheses. *)
Definition e_drawing : dims := table [("A", 40); ("B", 20); ("C", 10); ("D", 14); ("E", 30); ("F", 10)].

Example C118_e_witness : exists p q,
  process IEC_60205 (mkshape FE None e_drawing) = Parameters p /\
  process IEC_63182 (mkshape FE None e_drawing) = Parameters q /\
  effective (snd (process_data (mksettings IEC_60205 1)
     (mkcore (mkshape FE None e_drawing) Two_piece_set Powder 2 [] None)))
  = Some (Parameters (mkparameters (2 * le q) (ae q * INR 2) (2 * ve q * INR 2) (amin q * INR 2))).
Proof.
  assert (V : dim e_drawing "A" = 40 /\ dim e_drawing "B" = 20 /\ dim e_drawing "C" = 10 /\
              dim e_drawing "D" = 14 /\ dim e_drawing "E" = 30 /\ dim e_drawing "F" = 10)
    by (repeat split; reflexivity).
  destruct V as (A & B & C & D & E & F).
  destruct (C118_e_refused_iff IEC_60205 None e_drawing) as [_ [p P]]; try lra.
  destruct (C118_e_refused_iff IEC_63182 None e_drawing) as [_ [q Q]]; try lra.
  exists p, q. split; [exact P|]. split; [exact Q|].
  unfold process_data. cbn [core_material core_shape the_standard standard_of]. rewrite Q. reflexivity.
Qed.

(* What is not refused. A pot core whose base has no thickness is accepted with parameters that
   are not numbers. *)
Definition pot_drawing : dims := table [("A", 6); ("B", 1); ("D", 1); ("E", 4); ("F", 2); ("H", 0); ("G", 0)].

Theorem C118_every_bad_drawing_is_refused_refuted :
  dim pot_drawing "B" - dim pot_drawing "D" = 0 /\
  process IEC_60205 (mkshape FP (Some "3") pot_drawing) = Nan /\
  process IEC_63182 (mkshape FP (Some "3") pot_drawing) = Nan.
Proof.
  assert (V : dim pot_drawing "A" = 6 /\ dim pot_drawing "B" = 1 /\ dim pot_drawing "D" = 1 /\
              dim pot_drawing "E" = 4 /\ dim pot_drawing "F" = 2 /\ dim pot_drawing "H" = 0 /\
              dim pot_drawing "G" = 0) by (repeat split; reflexivity).
  destruct V as (A & B & D & E & F & H & G).
  split; [rewrite B, D; ring|].
  assert (P : pot_without_base (mkshape FP (Some "3") pot_drawing) = true).
  { unfold pot_without_base. cbn [shape_family subtype dimensions].
    unfold minimum_area, p_parts, p_slots. cbn [areas String.eqb Ascii.eqb Bool.eqb orb].
    rewrite A, B, D, E, F, H, G. pose proof PI_RGT_0 as PP.
    unfold positive, nonzero, negb, andb.
    repeat match goal with
           | |- context [Rlt_dec ?x ?y] => lazymatch y with
                                           | minimum _ => fail
                                           | _ => destruct (Rlt_dec x y) as [?|NN]; [|exfalso; apply NN; unfold Rdiv; rewrite ?Rmult_0_l; lra]
                                           end
           | |- context [Req_EM_T ?x ?y] => destruct (Req_EM_T x y); try lra
           end.
    destruct (Rlt_dec 0 (minimum _)) as [?|N]; [reflexivity|exfalso; apply N].
    apply minimum_pos; [discriminate|]. unfold Rdiv at 5 6 7 8. intros y I. cbn [In] in I.
    unfold Rdiv in I. rewrite ?Rmult_0_l, ?Rmult_0_r, ?Rminus_0_r in I.
    repeat (destruct I as [<- |I]; [simpl; nra|]). contradiction. }
  unfold process. cbn [shape_family]. rewrite P. split; reflexivity.
Qed.

(* An ETD piece deeper than its window is wide, with no clearance given. *)
Definition etd_drawing : dims := table [("A", 40); ("B", 20); ("C", 31); ("D", 14); ("E", 30); ("F", 10)].

Theorem C118_wide_piece_refuted : forall std, process std (mkshape FETD None etd_drawing) = Nan.
Proof.
  intros std.
  assert (C : dim etd_drawing "C" = 31) by reflexivity.
  assert (E : dim etd_drawing "E" = 30) by reflexivity.
  unfold process. cbn [subtype_fine shape_family subtype negb pot_without_base].
  assert (V : divisors_fine (mkshape FETD None etd_drawing) = true).
  { unfold divisors_fine. cbn [shape_family dimensions]. rewrite C, E. unfold nonzero.
    destruct (Req_EM_T 31 0); [lra|]. destruct (Req_EM_T 30 0); [lra|]. reflexivity. }
  assert (W : angles_defined (mkshape FETD None etd_drawing) = false).
  { unfold angles_defined. cbn [shape_family dimensions].
    replace (missing etd_drawing "G") with true by reflexivity. rewrite C, E. unfold within.
    destruct (Rle_dec (-(1)) (31 / 30)); [|reflexivity]. destruct (Rle_dec (31 / 30) 1); [lra|reflexivity]. }
  rewrite V, W. reflexivity.
Qed.

(* A UR piece whose subtype is none of the four reads variables nobody has set. *)
Theorem C118_unknown_subtype_refuted : forall std d, process std (mkshape FUR (Some "5") d) = Undefined.
Proof. reflexivity. Qed.

(* ---------- C119 ---------- *)

(* A weighted mean of areas. *)
Lemma whole_bounds : forall ss p, sound ss -> from_constants (whole ss) = Parameters p ->
  amin p <= ae p /\ (forall M, (forall x, In x ss -> snd x <= M) -> ae p <= M) /\
  (exists x, In x ss /\ amin p = snd x) /\ ve p <= SV ss.
Proof.
  intros ss p S H. destruct (whole_constants ss) as (E1 & E2).
  destruct (from_constants_ok _ _ H) as (A & B & C & ->). rewrite E1 in *. rewrite E2 in *.
  cbn [ae amin ve]. unfold minimum_area, whole in *. cbn [areas] in *.
  assert (NE : ss <> []) by (intros ->; unfold S1 in A; simpl in A; lra).
  repeat split.
  - apply (Rmult_le_reg_r (S2 ss)); [exact B|].
    replace (S1 ss / S2 ss * S2 ss) with (S1 ss) by (field; lra).
    apply mean_lower; [exact S|]. intros x I. apply minimum_le, in_map, I.
  - intros M Hm. apply (Rmult_le_reg_r (S2 ss)); [exact B|].
    replace (S1 ss / S2 ss * S2 ss) with (S1 ss) by (field; lra). apply mean_upper; assumption.
  - assert (I : In (minimum (map snd ss)) (map snd ss)).
    { apply minimum_in. destruct ss; [contradiction|discriminate]. }
    apply in_map_iff in I. destruct I as [x [E I]]. exists x. split; [exact I|symmetry; exact E].
  - assert (P : 0 < S2 ss ^ 2) by (apply pow_lt, B). apply (Rmult_le_reg_r (S2 ss ^ 2)); [exact P|].
    replace (S1 ss ^ 3 / S2 ss ^ 2 * S2 ss ^ 2) with (S1 ss ^ 3) by (field; lra). apply S1_cube, S.
Qed.

Lemma halves_bounds : forall ss p, sound ss -> from_constants (halves ss) = Parameters p ->
  amin p <= ae p /\ (forall M, (forall x, In x ss -> snd x <= M) -> ae p <= M).
Proof.
  intros ss p S H. destruct (halves_constants ss) as (E1 & E2).
  destruct (from_constants_ok _ _ H) as (A & B & C & ->). rewrite E1 in *. rewrite E2 in *.
  cbn [ae amin]. unfold minimum_area, halves in *. cbn [areas] in *.
  replace (S1 ss / 2 / (S2 ss / 2)) with (S1 ss / S2 ss) by (field; lra).
  split.
  - apply (Rmult_le_reg_r (S2 ss)); [lra|].
    replace (S1 ss / S2 ss * S2 ss) with (S1 ss) by (field; lra).
    apply mean_lower; [exact S|]. intros x I. apply minimum_le, in_map, I.
  - intros M Hm. apply (Rmult_le_reg_r (S2 ss)); [lra|].
    replace (S1 ss / S2 ss * S2 ss) with (S1 ss) by (field; lra). apply mean_upper; assumption.
Qed.

Lemma doubled_bounds : forall ss p, sound ss -> from_constants (doubled_areas ss) = Parameters p ->
  amin p <= ae p /\ (forall M, (forall x, In x ss -> 2 * snd x <= M) -> ae p <= M).
Proof.
  intros ss p S H. destruct (doubled_constants ss) as (E1 & E2).
  destruct (from_constants_ok _ _ H) as (A & B & C & ->). rewrite E1 in *. rewrite E2 in *.
  cbn [ae amin]. unfold minimum_area, doubled_areas in *. cbn [areas] in *.
  replace (S1 ss / 2 / (S2 ss / 4)) with (2 * (S1 ss / S2 ss)) by (field; lra).
  rewrite <- (map_map snd (Rmult 2)) in *. rewrite minimum_scale in * by lra.
  split.
  - apply Rmult_le_compat_l; [lra|]. apply (Rmult_le_reg_r (S2 ss)); [lra|].
    replace (S1 ss / S2 ss * S2 ss) with (S1 ss) by (field; lra).
    apply mean_lower; [exact S|]. intros x I. apply minimum_le, in_map, I.
  - intros M Hm. assert (X : S1 ss / S2 ss <= M / 2); [|lra].
    apply (Rmult_le_reg_r (S2 ss)); [lra|].
    replace (S1 ss / S2 ss * S2 ss) with (S1 ss) by (field; lra). apply mean_upper; [exact S|].
    intros x I. specialize (Hm x I). lra.
Qed.

(* From positive areas and lengths that are not negative. *)
Lemma areas_positive : forall (l : list (R * R)), l <> [] -> 0 < minimum (map snd l) ->
  forall x, In x l -> 0 < snd x.
Proof.
  intros l N M x I. apply (proj1 (minimum_pos (map snd l) ltac:(destruct l; [contradiction|discriminate]))); [exact M|].
  apply in_map, I.
Qed.

Ltac each_length := let x := fresh "x" in let J := fresh "J" in
  intros x J; cbn [In] in J; repeat (destruct J as [<- |J]; [cbn [fst]|]); [..|contradiction].

Lemma etd_lengths : forall leg d, 0 <= dim d "D" <= dim d "B" -> 0 <= dim d "F" <= dim d "E" ->
  0 < dim d "C" -> 0 <= leg -> forall x, In x (etd_sections leg d) -> 0 <= fst x.
Proof.
  intros leg d D F C L. unfold etd_sections. pose proof PI_RGT_0 as PP.
  assert (Q : 0 <= leg / dim d "C") by (apply div_nonneg; assumption).
  set (q := leg / dim d "C") in *. clearbody q. each_length; nra.
Qed.

Lemma el_lengths : forall d, 0 <= dim d "D" <= dim d "B" -> 0 <= dim d "F" <= dim d "F2" ->
  dim d "F" <= dim d "E" <= dim d "A" -> 0 < dim d "F2" ->
  forall x, In x (el_sections d) -> 0 <= fst x.
Proof.
  intros d D F E Z. unfold el_sections. pose proof PI_RGT_0 as PP.
  set (q := _ / dim d "F2").
  assert (Q : 0 <= q).
  { unfold q. apply div_nonneg; [|exact Z]. pose proof (pow2_ge_0 (dim d "F")).
    assert (0 <= PI * dim d "F" ^ 2) by (apply Rmult_le_pos; lra). nra. }
  clearbody q. each_length; nra.
Qed.

Lemma efd_lengths : forall d, 0 <= dim d "D" <= dim d "B" -> 0 <= dim d "F" <= dim d "E" ->
  dim d "E" <= dim d "A" -> forall x, In x (efd_sections d) -> 0 <= fst x.
Proof.
  intros d D F E. unfold efd_sections. pose proof PI_RGT_0 as PP.
  set (q := sqrt _). assert (Q : 0 <= q) by apply sqrt_pos. clearbody q. each_length; nra.
Qed.

Lemma pq_radial_length : forall d, 0 < dim d "F" -> dim d "F" < dim d "E" -> 0 <= pq_l2 d.
Proof.
  intros d F E. unfold pq_l2, pq_f.
  set (q := sqrt _). assert (Q : 0 <= q) by apply sqrt_pos. clearbody q.
  set (l := ln _). clearbody l.
  assert (A : 0 <= ((dim d "E" - dim d "F") / 2 + q / 2) / (2 * ((dim d "E" - dim d "F") / 2)))
    by (apply div_nonneg; lra).
  set (f := _ / (2 * _)) in *. clearbody f.
  apply Rmult_le_pos; [|apply pow2_ge_0]. apply div_nonneg; [|lra].
  apply Rmult_le_pos; [apply Rmult_le_pos|]; lra.
Qed.

Lemma root_of_two : 0 <= 1 - 1 / sqrt 2.
Proof.
  assert (S : 1 <= sqrt 2) by (rewrite <- sqrt_1 at 1; apply sqrt_le_1_alt; lra).
  assert (1 / sqrt 2 <= 1); [|lra]. apply (Rmult_le_reg_r (sqrt 2)); [lra|]. field_simplify; lra.
Qed.

Lemma pq_lengths : forall d, 0 <= dim d "D" <= dim d "B" -> 0 < dim d "F" -> dim d "F" < dim d "E" ->
  dim d "E" <= dim d "A" -> forall x, In x (pq_sections d) -> 0 <= fst x.
Proof.
  intros d D F E A. unfold pq_sections. pose proof PI_RGT_0 as PP.
  pose proof (pq_radial_length d F E) as L. pose proof root_of_two as R2.
  set (r := 1 - 1 / sqrt 2) in *. clearbody r. set (l := pq_l2 d) in *. clearbody l.
  assert (0 <= r * dim d "F") by (apply Rmult_le_pos; lra).
  each_length; try nra.
  all: apply Rmult_le_pos; lra.
Qed.

Lemma pqi_lengths : forall d, 0 <= dim d "D" <= dim d "B" -> 0 < dim d "F" -> dim d "F" < dim d "E" ->
  dim d "E" <= dim d "A" -> 0 <= dim d "B2" -> forall x, In x (pqi_sections d) -> 0 <= fst x.
Proof.
  intros d D F E A B2. unfold pqi_sections. pose proof PI_RGT_0 as PP.
  pose proof (pq_radial_length d F E) as L. pose proof root_of_two as R2.
  set (r := 1 - 1 / sqrt 2) in *. clearbody r. set (l := pq_l2 d) in *. clearbody l.
  assert (0 <= r * dim d "F") by (apply Rmult_le_pos; lra).
  each_length; try lra; apply Rmult_le_pos; lra.
Qed.

Lemma u_like_lengths : forall c y h q p s, 0 <= c -> 0 <= y -> 0 <= h -> 0 <= p -> 0 <= s ->
  forall x, In x (u_like c y h q p s) -> 0 <= fst x.
Proof.
  intros c y h q p s C Y H P S. unfold u_like. pose proof PI_RGT_0 as PP.
  each_length; try lra; apply Rmult_le_pos; lra.
Qed.

Lemma plate_lengths : forall m c y q w1 w2 h t, 0 <= c -> 0 <= y -> 0 <= h -> 0 <= w1 -> 0 <= w2 -> 0 <= t ->
  forall x, In x (plate_sections m c y q w1 w2 h t) -> 0 <= fst x.
Proof.
  intros m c y q w1 w2 h t C Y H W1 W2 T. unfold plate_sections. pose proof PI_RGT_0 as PP.
  each_length; try lra; apply Rmult_le_pos; lra.
Qed.

Lemma u_legs_nonneg : forall d, 0 <= dim d "E" -> 0 <= dim d "H" -> dim d "E" + dim d "H" <= dim d "A" ->
  0 <= fst (u_legs d) /\ 0 <= snd (u_legs d).
Proof. intros d E H A. unfold u_legs. destruct (negligible d "H"); cbn [fst snd]; lra. Qed.

Lemma ur_lengths : forall t d, 0 <= dim d "D" <= dim d "B" -> 0 <= dim d "C" -> 0 <= dim d "E" ->
  0 <= dim d "F" -> 0 <= dim d "H" -> dim d "C" + dim d "H" <= dim d "A" ->
  dim d "F" + dim d "H" <= dim d "A" -> forall x, In x (ur_sections t d) -> 0 <= fst x.
Proof.
  intros t d D C E F H A1 A2. pose proof PI_RGT_0 as PP.
  assert (Y : 0 <= ur_yoke d).
  { unfold ur_yoke. destruct (negligible d "E"); [destruct (negligible d "F")|]; lra. }
  unfold ur_sections. set (y := ur_yoke d) in *. clearbody y.
  destruct (String.eqb t "1"); [|destruct (String.eqb t "2"); [|destruct (String.eqb t "3")]];
    each_length; try lra; apply Rmult_le_pos; lra.
Qed.

Lemma positive_true : forall x, positive x = true -> 0 < x.
Proof. intros x. unfold positive. destruct (Rlt_dec 0 x); [trivial|discriminate]. Qed.
Lemma nonzero_true : forall x, nonzero x = true -> x <> 0.
Proof. intros x. unfold nonzero. destruct (Req_EM_T x 0); [discriminate|trivial]. Qed.

(* Bounds on the parameters by the areas of a list. *)
Definition between (p : parameters) (l : list R) : Prop :=
  amin p <= ae p /\ (forall M, (forall a, In a l -> a <= M) -> ae p <= M).

Lemma between_map : forall (p : parameters) (ss : list (R * R)) (f : R * R -> R),
  amin p <= ae p -> (forall M, (forall x, In x ss -> f x <= M) -> ae p <= M) -> between p (map f ss).
Proof.
  intros p ss f A B. split; [exact A|]. intros M H. apply B. intros x I. apply H, in_map, I.
Qed.

Lemma sectioned_between : forall s p, sectioned s -> drawn s ->
  divisors_fine s = true -> from_constants (piece_parts s) = Parameters p ->
  between p (areas (piece_parts s)).
Proof.
  intros [f t d] p S D V H.
  assert (M : 0 < minimum (areas (piece_parts (mkshape f t d)))).
  { destruct (from_constants_ok _ _ H) as (_ & _ & M & _). exact M. }
  unfold sectioned, drawn, proportioned, ring_proportioned, divisors_fine, piece_parts in *.
  cbn [shape_family subtype dimensions] in *.
  destruct f; try contradiction; cbn [areas whole halves doubled_areas] in *.
  - (* E *) destruct D as (D & C & F & A).
    apply whole_bounds in H; [destruct H as (X & Y & _); apply between_map; assumption|].
    intros x I. split; [apply (e_lengths d); assumption || lra|].
    apply (areas_positive (e_sections d)); [discriminate|exact M|exact I].
  - (* ETD *) destruct D as (D & C & F & A). apply andb_prop in V. destruct V as [V1 V2].
    apply nonzero_true in V1. assert (C' : 0 < dim d "C") by lra.
    apply whole_bounds in H; [destruct H as (X & Y & _); apply between_map; assumption|].
    intros x I.
    assert (P : forall y, In y (etd_sections (etd_leg_area d) d) -> 0 < snd y)
      by (apply areas_positive; [discriminate|exact M]).
    split; [|apply P; exact I]. apply (etd_lengths (etd_leg_area d) d); try assumption.
    specialize (P _ (or_introl eq_refl)). cbn [snd] in P.
    replace (2 * dim d "C" * (etd_leg_area d / dim d "C")) with (2 * etd_leg_area d) in P by (field; exact V1). lra.
  - (* EC *) destruct D as (D & C & F & A). apply andb_prop in V. destruct V as [V1 V2].
    apply nonzero_true in V1. assert (C' : 0 < dim d "C") by lra.
    apply whole_bounds in H; [destruct H as (X & Y & _); apply between_map; assumption|].
    intros x I.
    assert (P : forall y, In y (etd_sections (ec_leg_area d) d) -> 0 < snd y)
      by (apply areas_positive; [discriminate|exact M]).
    split; [|apply P; exact I]. apply (etd_lengths (ec_leg_area d) d); try assumption.
    specialize (P _ (or_introl eq_refl)). cbn [snd] in P.
    replace (2 * dim d "C" * (ec_leg_area d / dim d "C")) with (2 * ec_leg_area d) in P by (field; exact V1). lra.
  - (* EL *) destruct D as (D & C & F & A). apply nonzero_true in V.
    apply doubled_bounds in H; [destruct H as (X & Y); apply between_map; assumption|].
    intros x I. split; [apply (el_lengths d); assumption || lra|].
    rewrite <- (map_map snd (Rmult 2)), minimum_scale in M by lra.
    apply (areas_positive (el_sections d)); [discriminate|lra|exact I].
  - (* EFD *) destruct D as (D & C & F & A).
    apply doubled_bounds in H; [destruct H as (X & Y); apply between_map; assumption|].
    intros x I. split; [apply (efd_lengths d); assumption || lra|].
    rewrite <- (map_map snd (Rmult 2)), minimum_scale in M by lra.
    apply (areas_positive (efd_sections d)); [discriminate|lra|exact I].
  - (* PQ *) destruct D as (D & C & F & A).
    apply andb_prop in V; destruct V as [V1 V2]. apply andb_prop in V1; destruct V1 as [V1 V3].
    apply andb_prop in V1; destruct V1 as [V1 V4]. apply andb_prop in V1; destruct V1 as [V1 V5].
    apply positive_true in V1. apply positive_true in V5. apply nonzero_true in V3.
    apply halves_bounds in H; [destruct H as (X & Y); apply between_map; assumption|].
    intros x I. split; [apply (pq_lengths d); assumption || lra|].
    apply (areas_positive (pq_sections d)); [discriminate|exact M|exact I].
  - (* U *) destruct D as (D & C & E & Hh & A). destruct (u_legs_nonneg d E Hh A) as (L1 & L2).
    unfold u_sections in *. destruct (u_legs d) as [w1 w2]. cbn [fst snd] in *.
    apply halves_bounds in H; [destruct H as (X & Y); apply between_map; assumption|].
    intros x I. split; [eapply u_like_lengths; [..|exact I]; lra|].
    eapply areas_positive; [|exact M|exact I]. discriminate.
  - (* UR *) destruct D as (D & C & E & F & Hh & A1 & A2).
    apply halves_bounds in H; [destruct H as (X & Y); apply between_map; assumption|].
    intros x I. split; [apply (ur_lengths _ d) with (x := x) in I; assumption|].
    eapply areas_positive; [|exact M|exact I]. unfold ur_sections.
    destruct (String.eqb _ "1"); [|destruct (String.eqb _ "2"); [|destruct (String.eqb _ "3")]]; discriminate.
  - (* UT *) destruct D as (D & C & E & F & A).
    apply whole_bounds in H; [destruct H as (X & Y & _); apply between_map; assumption|].
    intros x I. split; [eapply u_like_lengths; [..|exact I]; lra|].
    eapply areas_positive; [|exact M|exact I]. discriminate.
  - (* T *) destruct D as (B & C).
    apply whole_bounds in H; [destruct H as (X & Y & _); apply between_map; assumption|].
    intros x I. split.
    + destruct I as [<- |[]]. cbn [fst]. pose proof PI_RGT_0 as PP. apply Rmult_le_pos; lra.
    + apply (areas_positive (t_sections d)); [discriminate|exact M|exact I].
  - (* C *) destruct D as (D & C & E).
    apply halves_bounds in H; [destruct H as (X & Y); apply between_map; assumption|].
    intros x I. split; [eapply u_like_lengths; [..|exact I]; lra|].
    eapply areas_positive; [|exact M|exact I]. discriminate.
  - (* UI *) destruct D as (D & C & E & Hh & A & B2). destruct (u_legs_nonneg d E Hh A) as (L1 & L2).
    unfold ui_sections in *. destruct (u_legs d) as [w1 w2]. cbn [fst snd] in *.
    apply whole_bounds in H; [destruct H as (X & Y & _); apply between_map; assumption|].
    intros x I. split; [eapply plate_lengths; [..|exact I]; lra|].
    eapply areas_positive; [|exact M|exact I]. discriminate.
  - (* EI *) destruct D as (D & C & F & A & B2).
    apply whole_bounds in H; [destruct H as (X & Y & _); apply between_map; assumption|].
    intros x I. split; [eapply plate_lengths; [..|exact I]; lra|].
    eapply areas_positive; [|exact M|exact I]. discriminate.
  - (* PQI *) destruct D as (D & C & F & A & B2).
    apply andb_prop in V; destruct V as [V1 V2]. apply andb_prop in V1; destruct V1 as [V1 V3].
    apply andb_prop in V1; destruct V1 as [V1 V4]. apply andb_prop in V1; destruct V1 as [V1 V5].
    apply positive_true in V1. apply positive_true in V5. apply nonzero_true in V3.
    apply whole_bounds in H; [destruct H as (X & Y & _); apply between_map; assumption|].
    intros x I. split; [apply (pqi_lengths d); assumption || lra|].
    apply (areas_positive (pqi_sections d)); [discriminate|exact M|exact I].
Qed.

(* For the fourteen families made of sections with a length and an area, and any drawing that
   can be made, the smallest area reported is not above the effective area. Both standards. *)
Theorem C119_minimum_not_above_effective_partial : forall std s p, sectioned s -> drawn s ->
  process std s = Parameters p -> amin p <= ae p.
Proof.
  intros std s p S D H. destruct (process_parameters _ _ _ H) as (_ & V & _ & G). clear H.
  destruct std; [apply (sectioned_between s p S D V G)|].
  destruct s as [f t d].
  destruct f; try (apply (sectioned_between _ p S D V); apply default_63182; [exact I|exact G]).
  - unfold process_63182 in G. cbn [shape_family dimensions] in G.
    destruct (Rle_dec (minimum (map snd (e_sections d))) 0) as [|M]; [discriminate G|].
    destruct (Req_EM_T _ 0) as [|N]; [discriminate G|].
    destruct (from_length_ok _ _ _ _ G) as (P1 & P2 & P3 & ->). cbn [ae amin].
    unfold drawn, proportioned in D. cbn [shape_family dimensions] in D. destruct D as (D & C & F & A).
    assert (Sd : sound (e_sections d)).
    { intros x I. split; [apply (e_lengths d); assumption || lra|].
      apply (areas_positive (e_sections d)); [discriminate|lra|exact I]. }
    change (total (map fst (e_sections d))) with (S0 (e_sections d)) in *.
    change (total (map (fun x => fst x / snd x) (e_sections d))) with (S1 (e_sections d)) in *.
    assert (Q : 0 < S1 (e_sections d)).
    { destruct (Rlt_dec 0 (S1 (e_sections d))) as [Y|Y]; [exact Y|exfalso].
      pose proof (S_nonneg (e_sections d) Sd). lra. }
    apply (Rmult_le_reg_r (S1 (e_sections d))); [exact Q|].
    replace (S0 (e_sections d) / S1 (e_sections d) * S1 (e_sections d)) with (S0 (e_sections d)) by (field; lra).
    unfold S0, S1. rewrite <- total_map_scale. apply total_map_le. intros x I.
    destruct (Sd x I) as [L B].
    replace (fst x) with (snd x * (fst x / snd x)) at 2 by (field; lra).
    apply Rmult_le_compat_r; [apply div_nonneg; assumption|]. apply minimum_le, in_map, I.
  - unfold process_63182 in G. cbn [shape_family dimensions] in G.
    destruct (_ && _); [|discriminate G].
    destruct (from_length_ok _ _ _ _ G) as (P1 & P2 & P3 & ->). apply Rle_refl.
Qed.

(* An E piece in full: the smallest area is that of the legs, of the yoke or of the post, the
   effective area lies between the smallest and the largest of them, and the effective volume
   is at most that of the five sections. *)
Theorem C119_e_areas : forall t d p, proportioned (mkshape FE t d) ->
  process IEC_60205 (mkshape FE t d) = Parameters p ->
  let legs := dim d "C" * (dim d "A" - dim d "E") in
  let yoke := 2 * dim d "C" * (dim d "B" - dim d "D") in
  let post := dim d "C" * dim d "F" in
  amin p = Rmin legs (Rmin yoke post) /\
  amin p <= ae p <= Rmax legs (Rmax yoke post) /\
  ve p <= dim d "D" * legs + (dim d "E" - dim d "F") / 2 * yoke + dim d "D" * post
          + PI / 8 * ((dim d "A" - dim d "E") / 2 + (dim d "B" - dim d "D")) * ((legs + yoke) / 2)
          + PI / 8 * (dim d "F" / 2 + (dim d "B" - dim d "D")) * ((yoke + post) / 2).
Proof.
  intros t d p D H legs yoke post. destruct D as (D & C & F & A).
  cbn [dimensions] in *.
  rewrite (process_plain IEC_60205 (mkshape FE t d) I) in H. cbn match in H.
  change (piece_parts (mkshape FE t d)) with (whole (e_sections d)) in H.
  assert (M : 0 < minimum (map snd (e_sections d))).
  { destruct (from_constants_ok _ _ H) as (_ & _ & M & _). exact M. }
  assert (Sd : sound (e_sections d)).
  { intros x I. split; [apply (e_lengths d); assumption || lra|].
    apply (areas_positive (e_sections d)); [discriminate|exact M|exact I]. }
  assert (Am : amin p = minimum (map snd (e_sections d))).
  { destruct (from_constants_ok _ _ H) as (_ & _ & _ & ->). reflexivity. }
  destruct (whole_bounds _ _ Sd H) as (X & Y & Z & W).
  assert (E0 : 2 * dim d "C" * ((dim d "A" - dim d "E") / 2) = legs) by (unfold legs; field).
  assert (E2 : 2 * (dim d "F" / 2) * dim d "C" = post) by (unfold post; field).
  assert (E1 : 2 * dim d "C" * (dim d "B" - dim d "D") = yoke) by reflexivity.
  assert (Es : map snd (e_sections d) = [legs; yoke; post; (legs + yoke) / 2; (yoke + post) / 2]).
  { unfold e_sections. cbn [map snd]. rewrite E0, E1, E2. reflexivity. }
  assert (L1 := Rmax_l legs (Rmax yoke post)). assert (L2 := Rmax_r legs (Rmax yoke post)).
  assert (L3 := Rmax_l yoke post). assert (L4 := Rmax_r yoke post).
  split; [|split].
  - rewrite Am, Es. cbn [minimum smallest].
    unfold Rmin. repeat destruct (Rle_dec _ _); lra.
  - split; [exact X|]. apply Y. intros x I.
    assert (J : In (snd x) (map snd (e_sections d))) by (apply in_map, I).
    rewrite Es in J. cbn [In] in J.
    repeat (destruct J as [<- |J]; [lra|]). contradiction.
  - unfold SV, e_sections in W. cbn [map fst snd total] in W. rewrite E0, E1, E2 in W. lra.
Qed.

(* A U piece with equal legs. *)
Theorem C119_u_areas : forall t d p, proportioned (mkshape FU t d) -> d "H" = None ->
  process IEC_60205 (mkshape FU t d) = Parameters p ->
  let leg := dim d "C" * ((dim d "A" - dim d "E") / 2) in
  let yoke := dim d "C" * (dim d "B" - dim d "D") in
  amin p = Rmin leg yoke /\ amin p <= ae p <= Rmax leg yoke.
Proof.
  intros t d p D N H leg yoke.
  assert (V : divisors_fine (mkshape FU t d) = true) by reflexivity.
  rewrite (process_plain IEC_60205 (mkshape FU t d) I) in H. cbn match in H.
  destruct (sectioned_between (mkshape FU t d) p I D V H) as (X & Y).
  assert (Am : amin p = minimum (areas (piece_parts (mkshape FU t d)))).
  { destruct (from_constants_ok _ _ H) as (_ & _ & _ & ->). reflexivity. }
  assert (Es : areas (piece_parts (mkshape FU t d))
               = [leg; yoke; leg; (leg + yoke) / 2; (leg + yoke) / 2]).
  { unfold piece_parts, halves, u_sections, u_legs, negligible. cbn [shape_family dimensions areas].
    rewrite N. unfold u_like. cbn [map snd].
    rewrite (Rmult_comm ((dim d "A" - dim d "E") / 2) (dim d "C")). fold leg yoke.
    apply (f_equal2 cons); [reflexivity|]. apply (f_equal2 cons); [reflexivity|].
    apply (f_equal2 cons); [reflexivity|].
    apply (f_equal2 cons); [field|]. apply (f_equal2 cons); [field|]. reflexivity. }
  rewrite Es in *.
  split; [|split].
  - rewrite Am. cbn [minimum smallest]. unfold Rmin. repeat destruct (Rle_dec _ _); lra.
  - exact X.
  - apply Y. intros a J. assert (L1 := Rmax_l leg yoke). assert (L2 := Rmax_r leg yoke).
    cbn [In] in J. repeat (destruct J as [<- |J]; [lra|]). contradiction.
Qed.

Example C119_e_witness : exists p,
  proportioned (mkshape FE None e_drawing) /\
  process IEC_60205 (mkshape FE None e_drawing) = Parameters p /\ amin p = 100 /\ 100 <= ae p <= 120.
Proof.
  assert (V : dim e_drawing "A" = 40 /\ dim e_drawing "B" = 20 /\ dim e_drawing "C" = 10 /\
              dim e_drawing "D" = 14 /\ dim e_drawing "E" = 30 /\ dim e_drawing "F" = 10)
    by (repeat split; reflexivity).
  destruct V as (A & B & C & D & E & F).
  destruct (C118_e_refused_iff IEC_60205 None e_drawing) as [_ [p P]]; try lra.
  assert (Q : proportioned (mkshape FE None e_drawing)).
  { unfold proportioned. cbn [shape_family dimensions]. rewrite A, B, C, D, E, F. repeat split; lra. }
  exists p. destruct (C119_e_areas None e_drawing p Q P) as (X & Y & _).
  rewrite A, B, C, D, E, F in *.
  assert (M : amin p = 100). { rewrite X. unfold Rmin. repeat destruct (Rle_dec _ _); lra. }
  split; [exact Q|]. split; [exact P|]. split; [exact M|]. split.
  - lra.
  - destruct Y as (_ & Y). apply (Rle_trans _ _ _ Y). unfold Rmax. repeat destruct (Rle_dec _ _); lra.
Qed.

(* A pot core with a thin base: the smallest area reported is above the effective area, because
   the radial section is not among the areas compared. *)
Definition thin_pot : dims :=
  table [("A", 6); ("B", 21 / 20); ("D", 1); ("E", 4); ("F", 2); ("H", 0); ("G", 0)].

Lemma ln_2_below_1 : ln 2 < 1.
Proof.
  rewrite <- (ln_exp 1). apply ln_increasing; [lra|].
  replace 2 with (1 + 1) by ring. apply exp_ineq1. apply R1_neq_R0.
Qed.

Theorem C119_pot_core_refuted : exists p,
  process IEC_60205 (mkshape FP (Some "3") thin_pot) = Parameters p /\ ae p < amin p.
Proof.
  assert (V : dim thin_pot "A" = 6 /\ dim thin_pot "B" = 21 / 20 /\ dim thin_pot "D" = 1 /\
              dim thin_pot "E" = 4 /\ dim thin_pot "F" = 2 /\ dim thin_pot "H" = 0 /\
              dim thin_pot "G" = 0) by (repeat split; reflexivity).
  destruct V as (A & B & D & E & F & H & G). pose proof PI_RGT_0 as PP. pose proof PI_4 as P4.
  set (s := mkshape FP (Some "3") thin_pot).
  set (s1 := 1 - sqrt (1 / 2)). set (s2 := sqrt (13 / 2) - 2).
  assert (B1 : 0 <= s1 <= 1).
  { unfold s1. assert (Hs : sqrt (1 / 2) <= sqrt 1) by (apply sqrt_le_1_alt; lra). rewrite sqrt_1 in Hs.
    pose proof (sqrt_pos (1 / 2)). lra. }
  assert (B2 : 0 <= s2 <= 1).
  { unfold s2. assert (Ha : sqrt (2 ^ 2) <= sqrt (13 / 2)) by (apply sqrt_le_1_alt; lra).
    assert (Hb : sqrt (13 / 2) <= sqrt (3 ^ 2)) by (apply sqrt_le_1_alt; lra).
    rewrite sqrt_pow2 in Ha, Hb by lra. lra. }
  assert (Q : piece_parts s = mkparts
     (map half [(2 / (5 * PI), 2 / (5 * PI) ^ 2);
                (20 / PI * ln 2, 100 / PI ^ 2);
                (2 / PI, 2 / PI ^ 2);
                (PI / 4 * (2 * s2 + 1 / 20) / (PI * (26 / 10)), PI / 4 * (2 * s2 + 1 / 20) / (PI * (26 / 10)) ^ 2);
                (PI / 4 * (2 * s1 + 1 / 20) / (PI * (11 / 20)), PI / 4 * (2 * s1 + 1 / 20) / (PI * (11 / 20)) ^ 2)])
     [5 * PI; PI; PI * (26 / 10); PI * (11 / 20)]).
  { unfold s, piece_parts, p_parts, p_slots. cbn [shape_family dimensions subtype String.eqb Ascii.eqb Bool.eqb orb].
    rewrite A, B, D, E, F, H, G.
    replace (((0 / 2) ^ 2 + (2 / 2) ^ 2) / 2) with (1 / 2) by field.
    replace (((4 / 2) ^ 2 + (6 / 2) ^ 2) / 2) with (13 / 2) by field.
    replace (4 / 2 / (2 / 2)) with 2 by field.
    replace (2 / 2 - sqrt (1 / 2)) with s1 by (unfold s1; field).
    replace (sqrt (13 / 2) - 4 / 2) with s2 by (unfold s2; field).
    assert (I0 : 0 * 0 / (2 * PI * (4 / 2)) = 0) by (field; lra).
    assert (I1 : 0 * 0 / (PI * (4 / 2 + 6 / 2)) = 0) by (field; lra).
    rewrite I0, I1. unfold straight. cbn [map fst snd].
    clearbody s1 s2. unfold half. cbn [fst snd]. apply (f_equal2 mkparts).
    - repeat (apply (f_equal2 cons); [apply (f_equal2 pair); field; lra|]). reflexivity.
    - repeat (apply (f_equal2 cons); [field|]). reflexivity. }
  assert (C1 : constant1 (piece_parts s) <= 27 / PI / 2).
  { rewrite Q. unfold constant1. cbn [contributions map fst total half].
    apply (Rmult_le_reg_r (2 * PI)); [lra|].
    replace (27 / PI / 2 * (2 * PI)) with 27 by (field; lra).
    pose proof ln_2_below_1 as L2. clearbody s1 s2.
    replace (_ * (2 * PI)) with (2 / 5 + 20 * ln 2 + 2 + PI / 4 * (2 * s2 + 1 / 20) * (10 / 26)
                                 + PI / 4 * (2 * s1 + 1 / 20) * (20 / 11)) by (field; lra).
    assert (U1 : PI / 4 * (2 * s2 + 1 / 20) <= 1 * (41 / 20)) by (apply Rmult_le_compat; lra).
    assert (U2 : PI / 4 * (2 * s1 + 1 / 20) <= 1 * (41 / 20)) by (apply Rmult_le_compat; lra).
    lra. }
  assert (C1p : 0 < constant1 (piece_parts s)).
  { rewrite Q. unfold constant1. cbn [contributions map fst total half].
    apply (Rmult_lt_reg_r (2 * PI)); [lra|]. rewrite Rmult_0_l.
    pose proof ln_lt_2 as L2. clearbody s1 s2.
    replace (_ * (2 * PI)) with (2 / 5 + 20 * ln 2 + 2 + PI / 4 * (2 * s2 + 1 / 20) * (10 / 26)
                                 + PI / 4 * (2 * s1 + 1 / 20) * (20 / 11)) by (field; lra).
    assert (U1 : 0 <= PI / 4 * (2 * s2 + 1 / 20)) by (apply Rmult_le_pos; lra).
    assert (U2 : 0 <= PI / 4 * (2 * s1 + 1 / 20)) by (apply Rmult_le_pos; lra).
    lra. }
  assert (C2 : 100 / PI ^ 2 / 2 <= constant2 (piece_parts s)).
  { rewrite Q. unfold constant2. cbn [contributions map snd total half].
    apply (Rmult_le_reg_r (2 * PI ^ 2)); [pose proof (pow_lt PI 2 PP); lra|].
    replace (100 / PI ^ 2 / 2 * (2 * PI ^ 2)) with 100 by (field; lra). clearbody s1 s2.
    replace (_ * (2 * PI ^ 2)) with (2 / 25 + 100 + 2 + PI / 4 * (2 * s2 + 1 / 20) * (100 / 676)
                                 + PI / 4 * (2 * s1 + 1 / 20) * (400 / 121)) by (field; lra).
    assert (U1 : 0 <= PI / 4 * (2 * s2 + 1 / 20)) by (apply Rmult_le_pos; lra).
    assert (U2 : 0 <= PI / 4 * (2 * s1 + 1 / 20)) by (apply Rmult_le_pos; lra).
    lra. }
  assert (M : minimum_area (piece_parts s) = PI * (11 / 20)).
  { rewrite Q. unfold minimum_area. cbn [areas minimum smallest].
    unfold Rmin. repeat destruct (Rle_dec _ _); lra. }
  assert (Pos : 0 < 100 / PI ^ 2 / 2).
  { apply div_pos; [|lra]. apply div_pos; [lra|apply pow_lt, PP]. }
  assert (Fc : process IEC_60205 s = from_constants (piece_parts s)).
  { unfold process.
    assert (Pb : pot_without_base s = false).
    { unfold pot_without_base, s. cbn [shape_family subtype dimensions]. rewrite B, D.
      replace (nonzero (21 / 20 - 1)) with true; [cbn [negb]; rewrite !andb_false_r; reflexivity|].
      unfold nonzero. destruct (Req_EM_T (21 / 20 - 1) 0); [lra|reflexivity]. }
    assert (Df : divisors_fine s = true).
    { unfold divisors_fine, s. cbn [shape_family subtype dimensions].
      unfold p_slots. cbn [String.eqb Ascii.eqb Bool.eqb orb].
      rewrite ?A, ?B, ?D, ?E, ?F, ?H, ?G. unfold positive, nonzero.
      assert (I0 : 0 * 0 / (2 * PI * (4 / 2)) = 0) by (field; lra). rewrite ?I0.
      repeat match goal with
             | |- context [Rlt_dec ?x ?y] => destruct (Rlt_dec x y) as [?|NN]; [|exfalso; lra]
             | |- context [Req_EM_T ?x ?y] => destruct (Req_EM_T x y); [exfalso; lra|]
             end. reflexivity. }
    rewrite Pb, Df. reflexivity. }
  eexists. split.
  - fold s. rewrite Fc. apply from_constants_accepts; [exact C1p|lra|rewrite M; lra].
  - cbn [ae amin]. rewrite M.
    apply (Rmult_lt_reg_r (constant2 (piece_parts s))); [lra|].
    replace (constant1 (piece_parts s) / constant2 (piece_parts s) * constant2 (piece_parts s))
      with (constant1 (piece_parts s)) by (field; lra).
    apply (Rle_lt_trans _ _ _ C1). apply Rlt_le_trans with (PI * (11 / 20) * (100 / PI ^ 2 / 2)).
    + apply (Rmult_lt_reg_r (2 * PI)); [lra|].
      replace (27 / PI / 2 * (2 * PI)) with 27 by (field; lra).
      replace (PI * (11 / 20) * (100 / PI ^ 2 / 2) * (2 * PI)) with 55 by (field; lra). lra.
    + apply Rmult_le_compat_l; [lra|exact C2].
Qed.

Print Assumptions C118_parameters_consistent.
Print Assumptions C118_core_parameters_consistent.
Print Assumptions C119_minimum_not_above_effective_partial.
Print Assumptions C119_e_areas.
Print Assumptions C119_pot_core_refuted.
