(* C120, C121: enlarging a drawing, and two ways of building the same circuit. *)
From Coq Require Import Reals List Bool String Lra Psatz.
From Verif Require Import ShapeModel ShapeProofs ShapeScaleProofs ShapeProperties.
Import ListNotations.
Local Open Scope R_scope.
Local Open Scope string_scope.

(* ---------- Vocabulary ---------- *)

(* Every length of the drawing times k; an angle stays. *)
Definition enlarge (k : R) (s : shape) : shape :=
  mkshape (shape_family s) (subtype s)
    (fun x => if String.eqb x "alpha" then dimensions s x
              else match dimensions s x with Some v => Some (k * v) | None => None end).

(* A letter is absent, or too large to be taken for zero by a rounding to nine decimals. *)
Definition present_or_absent (k : R) (s : shape) (x : string) : Prop :=
  match dimensions s x with
  | None => True
  | Some v => v = 0 \/ (1 / 1000000000 <= Rabs v /\ 1 / 1000000000 <= k * Rabs v)
  end.
Definition clear_letters (k : R) (s : shape) : Prop :=
  match shape_family s with
  | FU | FUI => present_or_absent k s "H"
  | FUR => present_or_absent k s "E" /\ present_or_absent k s "F"
  | _ => True
  end.

Definition enlarged (k : R) (p q : parameters) : Prop :=
  le q = k * le p /\ ae q = k ^ 2 * ae p /\ ve q = k ^ 3 * ve p /\ amin q = k ^ 2 * amin p.

(* ---------- C120 ---------- *)

Lemma clear_negligible : forall k s x, 0 < k -> x <> "alpha" -> present_or_absent k s x ->
  negligible (scale k (dimensions s)) x = negligible (dimensions s) x.
Proof.
  intros k s x K N H. unfold present_or_absent in H. unfold negligible, scale.
  apply String.eqb_neq in N. rewrite N. destruct (dimensions s x) as [v|]; [|reflexivity].
  cbn [option_map].
  destruct H as [-> |[H1 H2]].
  - rewrite Rmult_0_r. reflexivity.
  - assert (E1 : Rabs (v * 1000000000) = Rabs v * 1000000000).
    { rewrite Rabs_mult. f_equal. apply Rabs_right. lra. }
    assert (E2 : Rabs (k * v * 1000000000) = k * Rabs v * 1000000000).
    { rewrite !Rabs_mult. f_equal; [f_equal|]; apply Rabs_right; lra. }
    rewrite E1, E2.
    destruct (Rlt_dec (k * Rabs v * 1000000000) (1 / 2)); [lra|].
    destruct (Rlt_dec (Rabs v * 1000000000) (1 / 2)); [lra|]. reflexivity.
Qed.

Lemma clear_same : forall k s, 0 < k -> clear_letters k s -> same_letters k s.
Proof.
  intros k s K H. unfold clear_letters in H. unfold same_letters.
  destruct (shape_family s); try exact I.
  - apply clear_negligible; [exact K|discriminate|exact H].
  - destruct H as [H1 H2]. split; apply clear_negligible; try assumption; discriminate.
  - apply clear_negligible; [exact K|discriminate|exact H].
Qed.

Lemma enlarge_scale : forall k s, enlarge k s = scale_shape k s.
Proof. reflexivity. Qed.

Lemma from_length_scaled : forall k l a m, 0 < k ->
  from_length_and_area (k * l) (k ^ 2 * a) (k ^ 2 * m)
  = on_parameters (scale_parameters_by k) (from_length_and_area l a m).
Proof.
  intros k l a m K. assert (K2 : 0 < k ^ 2) by (apply pow_lt, K). unfold from_length_and_area.
  assert (X : forall c x, 0 < c -> c * x <= 0 <-> x <= 0) by (intros c x C; split; intros; nra).
  destruct (Rle_dec (k * l) 0) as [A|A]; destruct (Rle_dec l 0) as [A'|A']; try (rewrite X in A by assumption); try tauto.
  destruct (Rle_dec (k ^ 2 * a) 0) as [B|B]; destruct (Rle_dec a 0) as [B'|B']; try (rewrite X in B by assumption); try tauto.
  destruct (Rle_dec (k ^ 2 * m) 0) as [C|C]; destruct (Rle_dec m 0) as [C'|C']; try (rewrite X in C by assumption); try tauto.
  cbn [on_parameters]. unfold scale_parameters_by. cbn [le ae ve amin]. f_equal. f_equal. ring.
Qed.

Lemma process_63182_scaled : forall k s, 0 < k -> same_letters k s ->
  process_63182 (scale_shape k s) = on_parameters (scale_parameters_by k) (process_63182 s).
Proof.
  intros k s K L. assert (N : k <> 0) by lra. assert (K2 : 0 < k ^ 2) by (apply pow_lt, K).
  assert (X : forall c x, 0 < c -> c * x <= 0 <-> x <= 0) by (intros c x C; split; intros; nra).
  assert (Default : match shape_family s with FE | FT => False | _ => True end ->
    (let p := piece_parts (scale_shape k s) in
     if Rle_dec (minimum_area p) 0 then Refused
     else if Req_EM_T (constant2 p) 0 then Outside
     else from_length_and_area (constant1 p ^ 2 / constant2 p) (constant1 p / constant2 p) (minimum_area p))
    = on_parameters (scale_parameters_by k)
    (let p := piece_parts s in
     if Rle_dec (minimum_area p) 0 then Refused
     else if Req_EM_T (constant2 p) 0 then Outside
     else from_length_and_area (constant1 p ^ 2 / constant2 p) (constant1 p / constant2 p) (minimum_area p))).
  { intros _. pose proof (piece_scaled k s K L) as P.
    destruct (scaled_constants k _ _ K P) as (C1 & C2 & M). cbv zeta. rewrite C1, C2, M.
    set (x := constant1 (piece_parts s)). set (y := constant2 (piece_parts s)).
    set (m := minimum_area (piece_parts s)). clearbody x y m.
    destruct (Rle_dec (k ^ 2 * m) 0) as [A|A]; destruct (Rle_dec m 0) as [A'|A'];
      try (rewrite X in A by assumption); try tauto.
    assert (K3 : 0 < k ^ 3) by (apply pow_lt, K).
    destruct (Req_EM_T (y / k ^ 3) 0) as [B|B]; destruct (Req_EM_T y 0) as [B'|B'].
    - reflexivity.
    - exfalso. apply B'. replace y with (y / k ^ 3 * k ^ 3) by (field; lra). rewrite B. ring.
    - exfalso. apply B. rewrite B'. unfold Rdiv. ring.
    - rewrite <- from_length_scaled by exact K. f_equal; field; auto. }
  destruct s as [f t d]. unfold process_63182. cbn [shape_family scale_shape dimensions] in *.
  destruct f; try (apply Default; exact I); clear Default.
  - rewrite (e_scaled k d). unfold scale_sections. rewrite !map_map. cbn [fst snd].
    rewrite <- (map_map snd (Rmult (k ^ 2))), minimum_scale by exact K2.
    rewrite (total_map_scale _ k fst).
    assert (Q : total (map (fun x => k * fst x / (k ^ 2 * snd x)) (e_sections d))
                = / k * total (map (fun x => fst x / snd x) (e_sections d))).
    { rewrite <- total_map_scale. apply total_map_ext. intros x _. unfold Rdiv. rewrite Rinv_mult.
      set (i := / snd x). clearbody i. field. exact N. }
    rewrite Q.
    set (l := total (map fst (e_sections d))). set (m := minimum (map snd (e_sections d))).
    set (y := total (map (fun x => fst x / snd x) (e_sections d))). clearbody l m y.
    destruct (Rle_dec (k ^ 2 * m) 0) as [A|A]; destruct (Rle_dec m 0) as [A'|A'];
      try (rewrite X in A by assumption); try tauto.
    destruct (Req_EM_T (/ k * y) 0) as [B|B]; destruct (Req_EM_T y 0) as [B'|B'].
    + reflexivity.
    + exfalso. apply B'. replace y with (/ k * y * k) by (field; exact N). rewrite B. ring.
    + exfalso. apply B. rewrite B'. ring.
    + rewrite <- from_length_scaled by exact K. f_equal; field; auto.
  - rewrite !(dim_scale k d) by discriminate.
    assert (P : forall x, positive (k * x) = positive x).
    { intros x. unfold positive. destruct (Rlt_dec 0 (k * x)) as [A|A]; destruct (Rlt_dec 0 x) as [B|B];
        try reflexivity; exfalso; [apply B|apply A]; nra. }
    assert (Z : nonzero (k * dim d "A" - k * dim d "B") = nonzero (dim d "A" - dim d "B")).
    { unfold nonzero. replace (k * dim d "A" - k * dim d "B") with (k * (dim d "A" - dim d "B")) by ring.
      destruct (Req_EM_T (k * (dim d "A" - dim d "B")) 0) as [A|A];
        destruct (Req_EM_T (dim d "A" - dim d "B") 0) as [B|B]; try reflexivity; exfalso.
      - destruct (Rmult_integral _ _ A); lra.
      - apply A. rewrite B. ring. }
    rewrite !P, Z. destruct (_ && _); [|reflexivity].
    rewrite <- from_length_scaled by exact K.
    assert (E1 : ring_length (scale k d) = k * ring_length d).
    { unfold ring_length. rewrite !(dim_scale k d) by discriminate. rewrite ratio by exact N.
      unfold Rdiv. ring. }
    assert (E2 : ring_area (scale k d) = k ^ 2 * ring_area d).
    { unfold ring_area. rewrite !(dim_scale k d) by discriminate.
      assert (Ch : chamfer (scale k d) = k * chamfer d).
      { unfold chamfer. rewrite (dim_scale k d "R") by discriminate. unfold scale. cbn [String.eqb Ascii.eqb Bool.eqb].
        destruct (d "r0"); reflexivity. }
      rewrite Ch.
      destruct (Rlt_dec 0 (k * chamfer d)) as [A|A]; destruct (Rlt_dec 0 (chamfer d)) as [B|B];
        try (exfalso; nra); field. }
    rewrite E1, E2. reflexivity.
Qed.

(* Enlarging a drawing k times is refused exactly when the drawing is, and otherwise multiplies
   the length by k, the areas by k^2 and the volume by k^3. Every family, both standards. *)
Theorem C120_parameters_scale : forall std k s, 0 < k -> clear_letters k s ->
  (forall p, process std s = Parameters p ->
     exists q, process std (enlarge k s) = Parameters q /\ enlarged k p q) /\
  (process std (enlarge k s) = Refused <-> process std s = Refused) /\
  (process std (enlarge k s) = Nan <-> process std s = Nan).
Proof.
  intros std k s K H. apply clear_same in H; [|exact K]. rewrite enlarge_scale.
  assert (E : process std (scale_shape k s) = on_parameters (scale_parameters_by k) (process std s)).
  { unfold process.
    replace (subtype_fine (scale_shape k s)) with (subtype_fine s) by (destruct s as [[] ? ?]; reflexivity).
    destruct (subtype_fine s); cbn [negb]; [|reflexivity].
    replace (shape_family (scale_shape k s)) with (shape_family s) by reflexivity.
    replace (match shape_family s with FEFD => missing (dimensions (scale_shape k s)) "q" | _ => false end)
      with (match shape_family s with FEFD => missing (dimensions s) "q" | _ => false end)
      by (destruct (shape_family s); try reflexivity; symmetry; apply missing_scale; [exact K|discriminate]).
    destruct (match shape_family s with FEFD => missing (dimensions s) "q" | _ => false end); [reflexivity|].
    rewrite pot_scaled by exact K. destruct (pot_without_base s); [reflexivity|].
    rewrite divisors_scaled by exact K. destruct (divisors_fine s); cbn [negb]; [|reflexivity].
    rewrite angles_scaled by exact K. destruct (angles_defined s); cbn [negb]; [|reflexivity].
    destruct std; [apply scaled_outcome; [exact K|apply piece_scaled; assumption]|].
    apply process_63182_scaled; assumption. }
  rewrite E. split; [|split].
  - intros p ->. cbn [on_parameters]. eexists. split; [reflexivity|]. repeat split.
  - destruct (process std s); cbn [on_parameters]; split; congruence.
  - destruct (process std s); cbn [on_parameters]; split; congruence.
Qed.

Example C120_witness : exists p q,
  process IEC_63182 (mkshape FE None e_drawing) = Parameters p /\
  process IEC_63182 (enlarge 3 (mkshape FE None e_drawing)) = Parameters q /\
  amin p = 100 /\ amin q = 900 /\ ve q = 27 * ve p.
Proof.
  assert (V : dim e_drawing "A" = 40 /\ dim e_drawing "B" = 20 /\ dim e_drawing "C" = 10 /\
              dim e_drawing "D" = 14 /\ dim e_drawing "E" = 30 /\ dim e_drawing "F" = 10)
    by (repeat split; reflexivity).
  destruct V as (A & B & C & D & E & F).
  destruct (C118_e_refused_iff IEC_63182 None e_drawing) as [_ [p P]]; try lra.
  assert (M : amin p = 100).
  { rewrite (process_plain IEC_63182 (mkshape FE None e_drawing) I) in P. cbn match in P.
    unfold process_63182 in P. cbn [shape_family dimensions] in P.
    destruct (Rle_dec _ 0); [discriminate P|]. destruct (Req_EM_T _ 0); [discriminate P|].
    destruct (from_length_ok _ _ _ _ P) as (_ & _ & _ & ->). cbn [amin].
    unfold e_sections. rewrite A, B, C, D, E, F. cbn [map snd minimum smallest].
    unfold Rmin. repeat destruct (Rle_dec _ _); lra. }
  destruct (C120_parameters_scale IEC_63182 3 (mkshape FE None e_drawing)) as (S & _); [lra|exact I|].
  destruct (S p P) as (q & Q & (Q1 & Q2 & Q3 & Q4)).
  exists p, q. repeat split; try assumption; lra.
Qed.

(* Without [clear_letters]: the second leg of a U, one nanometre wide, is read as absent in a
   drawing four times smaller. *)
Definition sliver : dims :=
  table [("A", 3); ("B", 2); ("C", 1); ("D", 1); ("E", 1); ("H", 1 / 1000000000)].

Theorem C120_small_letters_refuted : exists p q,
  process IEC_60205 (mkshape FU None sliver) = Parameters p /\
  process IEC_60205 (enlarge (1 / 4) (mkshape FU None sliver)) = Parameters q /\
  amin q <> (1 / 4) ^ 2 * amin p.
Proof.
  assert (V : dim sliver "A" = 3 /\ dim sliver "B" = 2 /\ dim sliver "C" = 1 /\
              dim sliver "D" = 1 /\ dim sliver "E" = 1 /\ dim sliver "H" = 1 / 1000000000)
    by (repeat split; reflexivity).
  destruct V as (A & B & C & D & E & H). pose proof PI_RGT_0 as PP.
  assert (N1 : negligible sliver "H" = false).
  { unfold negligible. replace (sliver "H") with (Some (1 / 1000000000)) by reflexivity.
    destruct (Rlt_dec _ _) as [L|L]; [exfalso|reflexivity].
    rewrite Rabs_right in L; lra. }
  assert (N2 : negligible (scale (1 / 4) sliver) "H" = true).
  { unfold negligible. replace (scale (1 / 4) sliver "H") with (Some (1 / 4 * (1 / 1000000000))) by reflexivity.
    destruct (Rlt_dec _ _) as [L|L]; [reflexivity|exfalso; apply L].
    rewrite Rabs_right; lra. }
  assert (S1 : u_sections sliver = u_like 2 1 1 1 (2 - 1 / 1000000000) (1 / 1000000000)).
  { unfold u_sections, u_legs. rewrite N1, A, B, C, D, E, H. unfold u_like.
    repeat (apply (f_equal2 cons); [apply (f_equal2 pair); field|]). reflexivity. }
  assert (S2 : u_sections (scale (1 / 4) sliver) = u_like (1 / 2) (1 / 4) (1 / 4) (1 / 4) (1 / 4) (1 / 4)).
  { unfold u_sections, u_legs. rewrite N2, !(dim_scale (1 / 4) sliver) by discriminate.
    rewrite A, B, C, D, E. unfold u_like.
    repeat (apply (f_equal2 cons); [apply (f_equal2 pair); field|]). reflexivity. }
  assert (L : forall c y h q p s, 0 < c -> 0 <= y -> 0 < h -> 0 < q -> 0 < p -> 0 < s ->
     exists r, from_constants (halves (u_like c y h q p s)) = Parameters r /\
               amin r = minimum (map snd (u_like c y h q p s))).
  { intros c y h q p s Hc Hy Hh Hq Hp Hs.
    assert (Q1 : 0 < q * p) by nra. assert (Q2 : 0 < q * h) by nra. assert (Q3 : 0 < s * q) by nra.
    destruct (mean_accepts_halves (u_like c y h q p s)) as [r R].
    - discriminate.
    - intros x J. split; [apply (u_like_lengths c y h q p s) with (x := x); try lra; exact J|].
      unfold u_like in J. cbn [In] in J.
      repeat (destruct J as [<- |J]; [cbn [snd]; lra|]). contradiction.
    - eexists. split; [left; reflexivity|exact Hc].
    - exists r. split; [exact R|]. destruct (from_constants_ok _ _ R) as (_ & _ & _ & ->). reflexivity. }
  destruct (L 2 1 1 1 (2 - 1 / 1000000000) (1 / 1000000000)) as (p & P & Mp); try lra.
  destruct (L (1 / 2) (1 / 4) (1 / 4) (1 / 4) (1 / 4) (1 / 4)) as (q & Q & Mq); try lra.
  exists p, q. split; [|split].
  - rewrite (process_plain IEC_60205 (mkshape FU None sliver) I). cbn match.
    change (piece_parts (mkshape FU None sliver)) with (halves (u_sections sliver)). rewrite S1. exact P.
  - rewrite enlarge_scale. rewrite (process_plain IEC_60205 (scale_shape (1 / 4) (mkshape FU None sliver)) I). cbn match.
    change (piece_parts (scale_shape (1 / 4) (mkshape FU None sliver))) with (halves (u_sections (scale (1 / 4) sliver))).
    rewrite S2. exact Q.
  - rewrite Mp, Mq. unfold u_like. cbn [map snd minimum smallest].
    unfold Rmin. repeat destruct (Rle_dec _ _); lra.
Qed.

(* ---------- C121 ---------- *)

Lemma minimum_same : forall l l', (forall x, In x l -> In x l') -> (forall x, In x l' -> In x l) ->
  l <> [] -> l' <> [] -> minimum l = minimum l'.
Proof.
  intros l l' A B N N'. apply Rle_antisym.
  - apply minimum_le, B, minimum_in, N'.
  - apply minimum_le, A, minimum_in, N.
Qed.

(* Two pieces against one with the same constants. *)
Lemma two_against_one : forall p q, constant1 q = 2 * constant1 p -> constant2 q = 2 * constant2 p ->
  minimum_area q = minimum_area p ->
  on_parameters (assemble Two_piece_set) (from_constants p) = from_constants q.
Proof.
  intros p q A B C. unfold from_constants. rewrite A, B, C.
  set (x := constant1 p). set (y := constant2 p). set (m := minimum_area p). clearbody x y m.
  destruct (Rle_dec x 0) as [X|X]; destruct (Rle_dec (2 * x) 0) as [X'|X']; try lra; [reflexivity|].
  destruct (Rle_dec y 0) as [Y|Y]; destruct (Rle_dec (2 * y) 0) as [Y'|Y']; try lra; [reflexivity|].
  destruct (Rle_dec m 0) as [M|M]; [reflexivity|]. cbn [on_parameters assemble le ae ve amin].
  f_equal. f_equal; field; lra.
Qed.

(* Same letters but for the height of the legs, which is halved: two such pieces face to face
   leave the same window as one piece and its plate. *)
Definition half_height (d d' : dims) : Prop :=
  dim d' "D" = dim d "D" / 2 /\ dim d' "B" - dim d' "D" = dim d "B" - dim d "D" /\
  forall x, x <> "B" -> x <> "D" -> d' x = d x.
Definition even_plate (d : dims) : Prop := dim d "B2" = dim d "B" - dim d "D".

Lemma dim_ext : forall (d d' : dims) x, d' x = d x -> dim d' x = dim d x.
Proof. intros d d' x H. unfold dim. rewrite H. reflexivity. Qed.

(* A U and its plate, as thick as the yoke, give the parameters of two U with half the legs. *)
Theorem C121_ui_is_two_u : forall t t' d d', half_height d d' -> even_plate d ->
  on_parameters (assemble Two_piece_set) (process IEC_60205 (mkshape FU t d'))
  = process IEC_60205 (mkshape FUI t' d).
Proof.
  intros t t' d d' (D & B & S) P. unfold even_plate in P.
  rewrite (process_plain IEC_60205 (mkshape FU t d') I), (process_plain IEC_60205 (mkshape FUI t' d) I).
  cbn match.
  change (piece_parts (mkshape FU t d')) with (halves (u_sections d')).
  change (piece_parts (mkshape FUI t' d)) with (whole (ui_sections d)).
  assert (L : u_legs d' = u_legs d).
  { unfold u_legs. replace (negligible d' "H") with (negligible d "H").
    - rewrite !(dim_ext d d') by (apply S; discriminate). reflexivity.
    - unfold negligible. rewrite (S "H") by discriminate. reflexivity. }
  unfold u_sections, ui_sections. rewrite L, P, B, D.
  rewrite !(dim_ext d d') by (apply S; discriminate).
  destruct (u_legs d) as [w1 w2]. set (h := dim d "B" - dim d "D"). set (c := dim d "C").
  set (e := dim d "E"). set (dd := dim d "D"). clearbody h c e dd.
  assert (E1 : 1 * c * w1 = c * w1) by ring. assert (E2 : 1 * c * w2 = w2 * c) by ring.
  assert (E3 : 1 * c * h = c * h) by ring.
  apply two_against_one.
  - destruct (halves_constants (u_like (2 * (dd / 2)) e h c w1 w2)) as [-> _].
    destruct (whole_constants (plate_sections 1 dd e c w1 w2 h h)) as [-> _].
    unfold S1, u_like, plate_sections. rewrite E1, E2, E3. cbn [map fst snd total].
    rewrite (Rplus_comm (w2 * c) (c * h)). unfold Rdiv.
    set (i := / (c * w1)). set (j := / (c * h)). set (m := / (w2 * c)).
    set (n := / ((c * w1 + c * h) * / 2)). set (o := / ((c * h + w2 * c) * / 2)). field.
  - destruct (halves_constants (u_like (2 * (dd / 2)) e h c w1 w2)) as [_ ->].
    destruct (whole_constants (plate_sections 1 dd e c w1 w2 h h)) as [_ ->].
    unfold S2, u_like, plate_sections. rewrite E1, E2, E3. cbn [map fst snd total].
    rewrite (Rplus_comm (w2 * c) (c * h)). unfold Rdiv.
    set (i := / (c * w1) ^ 2). set (j := / (c * h) ^ 2). set (m := / (w2 * c) ^ 2).
    set (n := / ((c * w1 + c * h) * / 2) ^ 2). set (o := / ((c * h + w2 * c) * / 2) ^ 2). field.
  - unfold minimum_area, whole, halves. cbn [areas].
    unfold u_like, plate_sections. rewrite E1, E2, E3. cbn [map snd].
    rewrite (Rplus_comm (w2 * c) (c * h)).
    apply minimum_same; try discriminate; cbn [In]; intros x J; tauto.
Qed.

(* The same with an E and a plate, *)
Theorem C121_ei_is_two_e : forall t t' d d', half_height d d' -> even_plate d ->
  on_parameters (assemble Two_piece_set) (process IEC_60205 (mkshape FE t d'))
  = process IEC_60205 (mkshape FEI t' d).
Proof.
  intros t t' d d' (D & B & S) P. unfold even_plate in P.
  rewrite (process_plain IEC_60205 (mkshape FE t d') I), (process_plain IEC_60205 (mkshape FEI t' d) I).
  cbn match.
  change (piece_parts (mkshape FE t d')) with (whole (e_sections d')).
  change (piece_parts (mkshape FEI t' d)) with (whole (ei_sections d)).
  unfold e_sections, ei_sections. rewrite P, B, D.
  rewrite !(dim_ext d d') by (apply S; discriminate).
  set (h := dim d "B" - dim d "D"). set (c := dim d "C").
  set (y := (dim d "E" - dim d "F") / 2). set (dd := dim d "D").
  set (w1 := (dim d "A" - dim d "E") / 2). set (w2 := dim d "F" / 2). clearbody h c y dd w1 w2.
  assert (E2 : 2 * w2 * c = 2 * c * w2) by ring.
  rewrite E2. cbv zeta. unfold plate_sections.
  apply two_against_one.
  - match goal with |- constant1 (whole ?a) = 2 * constant1 (whole ?b) =>
      destruct (whole_constants a) as [-> _]; destruct (whole_constants b) as [-> _] end.
    unfold S1. cbn [map fst snd total].
    rewrite (Rplus_comm (2 * c * w2) (2 * c * h)). unfold Rdiv.
    set (i := / (2 * c * w1)). set (j := / (2 * c * h)). set (m := / (2 * c * w2)).
    set (n := / ((2 * c * w1 + 2 * c * h) * / 2)). set (o := / ((2 * c * h + 2 * c * w2) * / 2)). field.
  - match goal with |- constant2 (whole ?a) = 2 * constant2 (whole ?b) =>
      destruct (whole_constants a) as [_ ->]; destruct (whole_constants b) as [_ ->] end.
    unfold S2. cbn [map fst snd total].
    rewrite (Rplus_comm (2 * c * w2) (2 * c * h)). unfold Rdiv.
    set (i := / (2 * c * w1) ^ 2). set (j := / (2 * c * h) ^ 2). set (m := / (2 * c * w2) ^ 2).
    set (n := / ((2 * c * w1 + 2 * c * h) * / 2) ^ 2). set (o := / ((2 * c * h + 2 * c * w2) * / 2) ^ 2). field.
  - unfold minimum_area, whole. cbn [areas map snd].
    rewrite (Rplus_comm (2 * c * w2) (2 * c * h)).
    apply minimum_same; try discriminate; cbn [In]; intros x J; tauto.
Qed.

(* and with a PQ. *)
Theorem C121_pqi_is_two_pq : forall t t' d d' p, half_height d d' -> even_plate d ->
  (process IEC_60205 (mkshape FPQI t' d) = Parameters p <->
   on_parameters (assemble Two_piece_set) (process IEC_60205 (mkshape FPQ t d')) = Parameters p).
Proof.
  intros t t' d d' p (D & B & S) P. unfold even_plate in P.
  assert (Dv : divisors_fine (mkshape FPQ t d') = divisors_fine (mkshape FPQI t' d)).
  { unfold divisors_fine. cbn [shape_family dimensions]. unfold pq_J, missing.
    rewrite B, ?(S "J") by discriminate.
    rewrite !(dim_ext d d') by (apply S; discriminate). reflexivity. }
  assert (An : angles_defined (mkshape FPQ t d') = angles_defined (mkshape FPQI t' d)).
  { unfold angles_defined. cbn [shape_family dimensions].
    rewrite !(dim_ext d d') by (apply S; discriminate). reflexivity. }
  unfold process. rewrite Dv, An. cbn [subtype_fine shape_family negb pot_without_base].
  destruct (divisors_fine (mkshape FPQI t' d)); cbn [negb on_parameters]; [|split; discriminate].
  destruct (angles_defined (mkshape FPQI t' d)); cbn [negb on_parameters]; [|split; discriminate].
  change (piece_parts (mkshape FPQ t d')) with (halves (pq_sections d')).
  change (piece_parts (mkshape FPQI t' d)) with (whole (pqi_sections d)).
  rewrite (two_against_one (halves (pq_sections d')) (whole (pqi_sections d))); [tauto|..];
    clear Dv An p;
    assert (J : pq_J d' = pq_J d) by (unfold pq_J, missing; rewrite (S "J") by discriminate;
      rewrite !(dim_ext d d') by (apply S; discriminate); reflexivity);
    assert (L : pq_L d' = pq_L d) by (unfold pq_L, missing; rewrite (S "J") by discriminate;
      rewrite !(dim_ext d d') by (apply S; discriminate); reflexivity);
    assert (Be : pq_beta d' = pq_beta d) by (unfold pq_beta;
      rewrite !(dim_ext d d') by (apply S; discriminate); reflexivity);
    assert (Al : pq_alpha d' = pq_alpha d) by (unfold pq_alpha; rewrite J, L; reflexivity);
    assert (K : pq_K d' = pq_K d) by (unfold pq_K; rewrite J, L, Be, Al;
      rewrite !(dim_ext d d') by (apply S; discriminate); reflexivity);
    assert (F : pq_f d' = pq_f d) by (unfold pq_f; rewrite Be, Al;
      rewrite !(dim_ext d d') by (apply S; discriminate); reflexivity);
    assert (A1 : pq_a1 d' = pq_a1 d) by (unfold pq_a1; rewrite Be;
      rewrite !(dim_ext d d') by (apply S; discriminate); reflexivity);
    assert (A2 : forall x, pq_a2 x d' = pq_a2 x d) by (intros x; unfold pq_a2; rewrite K;
      rewrite !(dim_ext d d') by (apply S; discriminate); reflexivity);
    assert (L2 : pq_l2 d' = pq_l2 d) by (unfold pq_l2; rewrite F;
      rewrite !(dim_ext d d') by (apply S; discriminate); reflexivity);
    unfold pq_sections, pqi_sections; rewrite P, B, D, A1, A2, L2, Be, Al;
    rewrite !(dim_ext d d') by (apply S; discriminate);
    set (h := dim d "B" - dim d "D"); set (l2 := pq_l2 d); set (a1 := pq_a1 d); set (a2 := pq_a2 h d);
    set (a3 := PI / 4 * dim d "F" ^ 2); set (b := 2 * pq_beta d * dim d "E" * h);
    set (a := 2 * pq_alpha d * dim d "F" * h);
    set (w := h + dim d "A" / 2 - dim d "E" / 2); set (v := h + (1 - 1 / sqrt 2) * dim d "F");
    set (dd := dim d "D"); clearbody h l2 a1 a2 a3 b a w v dd; cbv zeta;
    assert (H1 : 1 / 2 * (a1 + b) = (a1 + b) / 2) by field;
    assert (H2 : 1 / 2 * (a3 + a) = (a3 + a) / 2) by field; rewrite H1, H2.
  - match goal with |- constant1 (whole ?a) = 2 * constant1 (halves ?b) =>
      destruct (whole_constants a) as [-> _]; destruct (halves_constants b) as [-> _] end.
    unfold S1. cbn [map fst snd total]. unfold Rdiv.
    set (i := / a1). set (j := / a2). set (k := / a3).
    set (m := / ((a1 + b) * / 2)). set (n := / ((a3 + a) * / 2)). field.
  - match goal with |- constant2 (whole ?a) = 2 * constant2 (halves ?b) =>
      destruct (whole_constants a) as [_ ->]; destruct (halves_constants b) as [_ ->] end.
    unfold S2. cbn [map fst snd total]. unfold Rdiv.
    set (i := / a1 ^ 2). set (j := / a2 ^ 2). set (k := / a3 ^ 2).
    set (m := / ((a1 + b) * / 2) ^ 2). set (n := / ((a3 + a) * / 2) ^ 2). field.
  - unfold minimum_area, whole, halves. cbn [areas map snd].
    apply minimum_same; try discriminate; cbn [In]; intros x Q; tauto.
Qed.

(* The closed UT is a U with a plate as thick as its yoke; F is the width of a leg. *)
Theorem C121_ut_is_ui : forall t t' d d', even_plate d -> d "H" = None ->
  dim d' "A" = dim d "A" -> dim d' "E" = dim d "E" -> dim d' "C" = dim d "C" -> dim d' "D" = dim d "D" ->
  dim d' "F" = (dim d "A" - dim d "E") / 2 -> dim d' "B" = dim d "D" + 2 * (dim d "B" - dim d "D") ->
  process IEC_60205 (mkshape FUT t d') = process IEC_60205 (mkshape FUI t' d).
Proof.
  intros t t' d d' P H A E C D F B. unfold even_plate in P.
  rewrite (process_plain IEC_60205 (mkshape FUT t d') I), (process_plain IEC_60205 (mkshape FUI t' d) I).
  cbn match.
  change (piece_parts (mkshape FUT t d')) with (whole (ut_sections d')).
  change (piece_parts (mkshape FUI t' d)) with (whole (ui_sections d)).
  unfold ut_sections, ui_sections, u_legs, negligible. rewrite H, P, A, E, C, D, F, B.
  replace ((dim d "D" + 2 * (dim d "B" - dim d "D") - dim d "D") / 2) with (dim d "B" - dim d "D") by field.
  replace (dim d "A" - dim d "E" - (dim d "A" - dim d "E") / 2) with ((dim d "A" - dim d "E") / 2) by field.
  set (h := dim d "B" - dim d "D"). set (c := dim d "C"). set (w := (dim d "A" - dim d "E") / 2).
  set (e := dim d "E"). set (dd := dim d "D"). clearbody h c e dd w.
  assert (E1 : 1 * c * w = c * w) by ring. assert (E2 : w * c = c * w) by ring.
  assert (E3 : 1 * c * h = c * h) by ring.
  unfold u_like, plate_sections. rewrite E1, E2, E3.
  assert (Q : forall p q, constant1 q = constant1 p -> constant2 q = constant2 p ->
                minimum_area q = minimum_area p -> from_constants p = from_constants q).
  { intros p q X Y Z. unfold from_constants. rewrite X, Y, Z. reflexivity. }
  apply Q; clear Q.
  - match goal with |- constant1 (whole ?a) = constant1 (whole ?b) =>
      destruct (whole_constants a) as [-> _]; destruct (whole_constants b) as [-> _] end.
    unfold S1. cbn [map fst snd total]. rewrite (Rplus_comm (c * h) (c * w)). unfold Rdiv.
    set (i := / (c * w)). set (j := / (c * h)). set (n := / ((c * w + c * h) * / 2)). field.
  - match goal with |- constant2 (whole ?a) = constant2 (whole ?b) =>
      destruct (whole_constants a) as [_ ->]; destruct (whole_constants b) as [_ ->] end.
    unfold S2. cbn [map fst snd total]. rewrite (Rplus_comm (c * h) (c * w)). unfold Rdiv.
    set (i := / (c * w) ^ 2). set (j := / (c * h) ^ 2). set (n := / ((c * w + c * h) * / 2) ^ 2). field.
  - unfold minimum_area, whole. cbn [areas map snd]. rewrite (Rplus_comm (c * h) (c * w)).
    apply minimum_same; try discriminate; cbn [In]; intros x J; tauto.
Qed.

(* Drawings that match, with parameters on both sides. *)
Definition ei_drawing : dims :=
  table [("A", 40); ("B", 34); ("C", 10); ("D", 28); ("E", 30); ("F", 10); ("B2", 6)].
Definition e_half_drawing : dims :=
  table [("A", 40); ("B", 20); ("C", 10); ("D", 14); ("E", 30); ("F", 10); ("B2", 6)].

Example C121_witness : half_height ei_drawing e_half_drawing /\ even_plate ei_drawing /\
  exists p, process IEC_60205 (mkshape FEI None ei_drawing) = Parameters p.
Proof.
  assert (V : dim e_half_drawing "A" = 40 /\ dim e_half_drawing "B" = 20 /\ dim e_half_drawing "C" = 10 /\
              dim e_half_drawing "D" = 14 /\ dim e_half_drawing "E" = 30 /\ dim e_half_drawing "F" = 10)
    by (repeat split; reflexivity).
  destruct V as (A & B & C & D & E & F).
  assert (D' : dim ei_drawing "D" = 28) by reflexivity.
  assert (B' : dim ei_drawing "B" = 34) by reflexivity.
  assert (T' : dim ei_drawing "B2" = 6) by reflexivity.
  assert (Hh : half_height ei_drawing e_half_drawing).
  { split; [rewrite D, D'; lra|]. split; [rewrite B, B', D, D'; lra|].
    intros x N1 N2. unfold e_half_drawing, ei_drawing, table.
    apply String.eqb_neq in N1. apply String.eqb_neq in N2. rewrite N1, N2. reflexivity. }
  assert (P : even_plate ei_drawing) by (unfold even_plate; rewrite T', B', D'; lra).
  split; [exact Hh|]. split; [exact P|].
  destruct (C118_e_refused_iff IEC_60205 None e_half_drawing) as [_ [p Q]]; try lra.
  rewrite <- (C121_ei_is_two_e None None _ _ Hh P). rewrite Q. eexists. reflexivity.
Qed.

(* Not under the standard used for powder: two E add their lengths, an E and a plate do not. *)
Definition stout : dims := table [("A", 202); ("B", 52); ("C", 1); ("D", 2); ("E", 201); ("F", 1); ("B2", 50)].
Definition stout_half : dims := table [("A", 202); ("B", 51); ("C", 1); ("D", 1); ("E", 201); ("F", 1); ("B2", 50)].

Lemma stout_lengths :
  S0 (e_sections stout_half) = 102 + PI / 4 * (101 / 2) /\
  S1 (e_sections stout_half) = 3 + PI / 4 /\
  2 <= S2 (e_sections stout_half) /\ minimum (map snd (e_sections stout_half)) = 1.
Proof.
  assert (V : dim stout_half "A" = 202 /\ dim stout_half "B" = 51 /\ dim stout_half "C" = 1 /\
              dim stout_half "D" = 1 /\ dim stout_half "E" = 201 /\ dim stout_half "F" = 1)
    by (repeat split; reflexivity).
  destruct V as (A & B & C & D & E & F). pose proof PI_RGT_0 as PP.
  assert (Q : e_sections stout_half = [(1, 1); (100, 100); (1, 1); (PI / 8 * (101 / 2), 101 / 2); (PI / 8 * (101 / 2), 101 / 2)]).
  { unfold e_sections. rewrite A, B, C, D, E, F.
    repeat (apply (f_equal2 cons); [apply (f_equal2 pair); field|]). reflexivity. }
  rewrite Q. unfold S0, S1, S2. cbn [map fst snd total].
  split; [field|]. split; [field|]. split.
  - assert (0 <= PI / 8 * (101 / 2) / (101 / 2) ^ 2) by (apply div_nonneg; lra). lra.
  - cbn [minimum smallest]. unfold Rmin. repeat destruct (Rle_dec _ _); lra.
Qed.

Theorem C121_powder_plates_refuted : exists p q,
  half_height stout stout_half /\ even_plate stout /\
  on_parameters (assemble Two_piece_set) (process IEC_63182 (mkshape FE None stout_half)) = Parameters p /\
  process IEC_63182 (mkshape FEI None stout) = Parameters q /\ 10 * le q < le p.
Proof.
  assert (V : dim stout_half "A" = 202 /\ dim stout_half "B" = 51 /\ dim stout_half "C" = 1 /\
              dim stout_half "D" = 1 /\ dim stout_half "E" = 201 /\ dim stout_half "F" = 1)
    by (repeat split; reflexivity).
  destruct V as (A & B & C & D & E & F). pose proof PI_RGT_0 as PP. pose proof PI_4 as P4.
  assert (D' : dim stout "D" = 2) by reflexivity.
  assert (B' : dim stout "B" = 52) by reflexivity.
  assert (T' : dim stout "B2" = 50) by reflexivity.
  assert (Hh : half_height stout stout_half).
  { split; [rewrite D, D'; lra|]. split; [rewrite B, B', D, D'; lra|].
    intros x N1 N2. unfold stout, stout_half, table.
    apply String.eqb_neq in N1. apply String.eqb_neq in N2. rewrite N1, N2. reflexivity. }
  assert (P : even_plate stout) by (unfold even_plate; rewrite T', B', D'; lra).
  destruct stout_lengths as (L0 & L1 & L2 & M).
  destruct (C118_e_refused_iff IEC_60205 None stout_half) as [_ [r R]]; try lra.
  destruct (C118_e_refused_iff IEC_63182 None stout_half) as [_ [p Q]]; try lra.
  pose proof (C121_ei_is_two_e None None _ _ Hh P) as Same. rewrite R in Same. cbn [on_parameters] in Same.
  assert (Lp : le p = 102 + PI / 4 * (101 / 2)).
  { rewrite (process_plain IEC_63182 (mkshape FE None stout_half) I) in Q. cbn match in Q.
    unfold process_63182 in Q. cbn [shape_family dimensions] in Q. rewrite M in Q.
    destruct (Rle_dec 1 0); [discriminate Q|]. destruct (Req_EM_T _ 0); [discriminate Q|].
    destruct (from_length_ok _ _ _ _ Q) as (_ & _ & _ & ->). cbn [le]. exact L0. }
  assert (Lr : le r <= 8).
  { rewrite (process_plain IEC_60205 (mkshape FE None stout_half) I) in R. cbn match in R.
    change (piece_parts (mkshape FE None stout_half)) with (whole (e_sections stout_half)) in R.
    destruct (from_constants_ok _ _ R) as (X & Y & _ & ->). cbn [le].
    destruct (whole_constants (e_sections stout_half)) as [C1 C2]. rewrite C1, C2, L1 in *.
    apply (Rmult_le_reg_r (S2 (e_sections stout_half))); [lra|].
    replace ((3 + PI / 4) ^ 2 / S2 (e_sections stout_half) * S2 (e_sections stout_half))
      with ((3 + PI / 4) ^ 2) by (field; lra).
    assert ((3 + PI / 4) ^ 2 <= 4 ^ 2) by (apply pow_incr; lra). lra. }
  exists (assemble Two_piece_set p), (assemble Two_piece_set r).
  split; [exact Hh|]. split; [exact P|]. split; [rewrite Q; reflexivity|]. split.
  - rewrite (process_plain IEC_60205 (mkshape FEI None stout) I) in Same. cbn match in Same.
    rewrite (process_plain IEC_63182 (mkshape FEI None stout) I). cbn match.
    unfold process_63182. cbn [shape_family]. symmetry in Same.
    destruct (from_constants_ok _ _ Same) as (X & Y & Z & W). cbv zeta.
    destruct (Rle_dec (minimum_area (piece_parts (mkshape FEI None stout))) 0); [lra|].
    destruct (Req_EM_T (constant2 (piece_parts (mkshape FEI None stout))) 0); [lra|].
    rewrite W, from_length_accepts.
    + f_equal. f_equal. field. lra.
    + apply div_pos; [apply pow_lt|]; assumption.
    + apply div_pos; assumption.
    + exact Z.
  - cbn [assemble le]. rewrite Lp. lra.
Qed.

Print Assumptions C120_parameters_scale.
Print Assumptions C121_pqi_is_two_pq.
Print Assumptions C121_powder_plates_refuted.
