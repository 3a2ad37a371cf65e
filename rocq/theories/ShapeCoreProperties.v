(* C122 to C124: the two standards, the assembled core, and where columns and windows are. *)
From Coq Require Import Reals List Bool String Lra Psatz.
From Verif Require Import ShapeModel ShapeProofs ShapeProperties ShapeScaleProperties.
Import ListNotations.
Local Open Scope R_scope.
Local Open Scope string_scope.

(* ---------- C122: the two standards ---------- *)

(* Any family but E and the ring: both standards give the same parameters. *)
Theorem C122_other_families_agree : forall s p,
  shape_family s <> FE -> shape_family s <> FT ->
  (process IEC_63182 s = Parameters p <-> process IEC_60205 s = Parameters p).
Proof.
  intros s p NE NT.
  assert (F : match shape_family s with FE | FT => False | _ => True end)
    by (destruct (shape_family s); try exact I; contradiction).
  assert (G : process_63182 s = Parameters p <-> from_constants (piece_parts s) = Parameters p).
  { split; [apply default_63182; exact F|]. intros H.
    destruct (from_constants_ok _ _ H) as (X & Y & Z & W).
    assert (E : process_63182 s =
      if Rle_dec (minimum_area (piece_parts s)) 0 then Refused
      else if Req_EM_T (constant2 (piece_parts s)) 0 then Outside
      else from_length_and_area (constant1 (piece_parts s) ^ 2 / constant2 (piece_parts s))
             (constant1 (piece_parts s) / constant2 (piece_parts s)) (minimum_area (piece_parts s))).
    { unfold process_63182. destruct (shape_family s); try contradiction; reflexivity. }
    rewrite E.
    destruct (Rle_dec (minimum_area (piece_parts s)) 0); [lra|].
    destruct (Req_EM_T (constant2 (piece_parts s)) 0); [lra|].
    rewrite W, from_length_accepts.
    - f_equal. f_equal. field. lra.
    - apply div_pos; [apply pow_lt|]; assumption.
    - apply div_pos; assumption.
    - exact Z. }
  unfold process.
  destruct (subtype_fine s); cbn [negb]; [|split; discriminate].
  destruct (match shape_family s with FEFD => missing (dimensions s) "q" | _ => false end); [split; discriminate|].
  destruct (pot_without_base s); [split; discriminate|].
  destruct (divisors_fine s); cbn [negb]; [|split; discriminate].
  destruct (angles_defined s); cbn [negb]; [exact G|split; discriminate].
Qed.

(* An E: IEC 63182 reports a longer path, a larger area and a larger volume; the smallest area
   is the same. *)
Theorem C122_e_parameters_ordered : forall t d p q, proportioned (mkshape FE t d) ->
  process IEC_60205 (mkshape FE t d) = Parameters p ->
  process IEC_63182 (mkshape FE t d) = Parameters q ->
  le p <= le q /\ ae p <= ae q /\ ve p <= ve q /\ amin p = amin q.
Proof.
  intros t d p q (D & C & F & A) H G. cbn [dimensions] in *.
  rewrite (process_plain IEC_60205 (mkshape FE t d) I) in H. cbn match in H.
  rewrite (process_plain IEC_63182 (mkshape FE t d) I) in G. cbn match in G.
  change (piece_parts (mkshape FE t d)) with (whole (e_sections d)) in H.
  destruct (from_constants_ok _ _ H) as (P1 & P2 & M & ->).
  destruct (whole_constants (e_sections d)) as [C1 C2]. rewrite C1, C2 in *.
  unfold process_63182 in G. cbn [shape_family dimensions] in G.
  destruct (Rle_dec _ 0); [discriminate G|]. destruct (Req_EM_T _ 0); [discriminate G|].
  destruct (from_length_ok _ _ _ _ G) as (L & Ar & _ & ->). cbn [le ae ve amin].
  assert (Sd : sound (e_sections d)).
  { intros x J. split; [apply (e_lengths d); assumption || lra|].
    apply (areas_positive (e_sections d)); [discriminate|exact M|exact J]. }
  change (total (map fst (e_sections d))) with (S0 (e_sections d)) in *.
  change (total (map (fun x => fst x / snd x) (e_sections d))) with (S1 (e_sections d)) in *.
  pose proof (S1_S0_S2 (e_sections d) Sd) as K.
  set (x := S0 (e_sections d)) in *. set (y := S1 (e_sections d)) in *. set (z := S2 (e_sections d)) in *.
  assert (Q1 : y ^ 2 / z <= x).
  { apply (Rmult_le_reg_r z); [exact P2|]. replace (y ^ 2 / z * z) with (y ^ 2) by (field; lra). exact K. }
  assert (Q2 : y / z <= x / y).
  { apply (Rmult_le_reg_r (y * z)); [apply Rmult_lt_0_compat; assumption|].
    replace (y / z * (y * z)) with (y ^ 2) by (field; lra).
    replace (x / y * (y * z)) with (x * z) by (field; lra). exact K. }
  repeat split; try assumption.
  replace (y ^ 3 / z ^ 2) with (y ^ 2 / z * (y / z)) by (field; lra).
  apply Rmult_le_compat; try assumption; left; apply div_pos; try assumption. apply pow_lt, P1.
Qed.

(* The logarithmic mean lies between the smaller number and the arithmetic mean. *)
Lemma ln_lower : forall x, 1 < x -> 2 * (x - 1) / (x + 1) <= ln x.
Proof.
  intros x X.
  set (f := fun t => ln t - 2 * (t - 1) / (t + 1)).
  set (f' := fun t => / t - 4 / (t + 1) ^ 2).
  assert (Dv : forall c, 1 <= c <= x -> derivable_pt_lim f c (f' c)).
  { intros c [C1 C2]. unfold f, f'. apply derivable_pt_lim_minus; [apply derivable_pt_lim_ln; lra|].
    replace (4 / (c + 1) ^ 2) with ((2 * (c + 1) - 1 * (2 * (c - 1))) / Rsqr (c + 1))
      by (unfold Rsqr; field; lra).
    apply (derivable_pt_lim_div (fun t => 2 * (t - 1)) (fun t => t + 1)); [| |lra].
    - assert (E : derivable_pt_lim (mult_real_fct 2 (minus_fct id (fct_cte 1))) c (2 * (1 - 0))).
      { apply derivable_pt_lim_scal, derivable_pt_lim_minus;
          [apply derivable_pt_lim_id|apply derivable_pt_lim_const]. }
      replace (2 * (1 - 0)) with 2 in E by ring. exact E.
    - assert (E : derivable_pt_lim (plus_fct id (fct_cte 1)) c (1 + 0)).
      { apply derivable_pt_lim_plus; [apply derivable_pt_lim_id|apply derivable_pt_lim_const]. }
      replace (1 + 0) with 1 in E by ring. exact E. }
  destruct (MVT_cor2 f f' 1 x X Dv) as (c & E & Cc).
  assert (P : 0 <= f' c).
  { unfold f'. replace (/ c - 4 / (c + 1) ^ 2) with ((c - 1) ^ 2 / (c * (c + 1) ^ 2)) by (field; lra).
    apply div_nonneg; [apply pow2_ge_0|]. apply Rmult_lt_0_compat; [lra|]. apply pow_lt. lra. }
  assert (Z : f 1 = 0) by (unfold f; rewrite ln_1; field).
  assert (Y : 0 <= f x) by (rewrite Z in E; nra).
  unfold f in Y. lra.
Qed.

Lemma ln_upper : forall x, 1 < x -> ln x < x - 1.
Proof.
  intros x X. rewrite <- (ln_exp (x - 1)). apply ln_increasing; [lra|].
  replace x with (1 + (x - 1)) at 1 by ring. apply exp_ineq1. lra.
Qed.

(* A ring: the length of IEC 63182 lies between the inner circumference and the mean one of
   IEC 60205; without chamfer the areas are equal, with one the area is smaller. *)
Theorem C122_ring_parameters_ordered : forall t d p q, 0 < dim d "B" < dim d "A" ->
  process IEC_60205 (mkshape FT t d) = Parameters p ->
  process IEC_63182 (mkshape FT t d) = Parameters q ->
  PI * dim d "B" < le q <= le p /\ le p < PI * dim d "A" /\ ae q <= ae p /\ ve q <= ve p /\
  (d "r0" = None -> d "R" = None -> ae q = ae p) /\
  (forall r, d "r0" = Some r -> 0 < r -> ae q = ae p - (4 - PI) * r ^ 2 /\ ae q < ae p).
Proof.
  intros t d p q [B A] H G. pose proof PI_RGT_0 as PP. pose proof PI_4 as P4.
  assert (P4' : PI < 4).
  { pose proof (PI_ineq 1) as [_ U]. unfold tg_alt, PI_tg in U. simpl in U. lra. }
  assert (Cp : 0 < dim d "C").
  { rewrite (process_plain IEC_60205 (mkshape FT t d) I) in H. cbn match in H.
    destruct (from_constants_ok _ _ H) as (_ & _ & M & _).
    change (minimum_area (piece_parts (mkshape FT t d))) with ((dim d "A" - dim d "B") / 2 * dim d "C") in M. nra. }
  destruct (C118_ring_refused_iff t d) as (_ & R); [lra|lra|exact Cp|].
  destruct R as (p' & P & L & Ar & _); [exact A|]. rewrite H in P. injection P as <-.
  destruct (C118_parameters_consistent _ _ _ H) as (_ & _ & _ & _ & Vp).
  destruct (C118_parameters_consistent _ _ _ G) as (Lq0 & Aq0 & _ & _ & Vq).
  rewrite (process_plain IEC_63182 (mkshape FT t d) I) in G. cbn match in G.
  unfold process_63182 in G. cbn [shape_family dimensions] in G.
  destruct (_ && _); [|discriminate G].
  destruct (from_length_ok _ _ _ _ G) as (Lq & Aq & _ & Q).
  assert (Eq1 : le q = PI * (dim d "A" - dim d "B") / ln (dim d "A" / dim d "B")) by (rewrite Q; reflexivity).
  assert (Eq2 : ae q = ring_area d) by (rewrite Q; reflexivity). clear Q Lq Aq.
  set (a := dim d "A") in *. set (b := dim d "B") in *.
  assert (X : 1 < a / b).
  { apply (Rmult_lt_reg_r b); [exact B|]. replace (a / b * b) with a by (field; lra). lra. }
  pose proof (ln_upper _ X) as U. pose proof (ln_lower _ X) as W.
  assert (Lp : 0 < ln (a / b)) by (rewrite <- ln_1; apply ln_increasing; lra).
  assert (Z1 : PI * b < le q).
  { rewrite Eq1. apply (Rmult_lt_reg_r (ln (a / b))); [exact Lp|].
    replace (PI * (a - b) / ln (a / b) * ln (a / b)) with (PI * (b * (a / b - 1))) by (field; lra).
    rewrite Rmult_assoc. apply Rmult_lt_compat_l; [exact PP|]. apply Rmult_lt_compat_l; assumption. }
  assert (Z2 : le q <= le p).
  { rewrite Eq1, L. apply (Rmult_le_reg_r (ln (a / b))); [exact Lp|].
    replace (PI * (a - b) / ln (a / b) * ln (a / b)) with (PI * (a + b) / 2 * (2 * (a / b - 1) / (a / b + 1)))
      by (field; lra).
    apply Rmult_le_compat_l; [|exact W]. assert (0 < PI * (a + b)) by (apply Rmult_lt_0_compat; lra). lra. }
  assert (Z3 : ae q <= ae p).
  { rewrite Eq2, Ar. unfold ring_area. fold a b. destruct (Rlt_dec 0 (chamfer d)) as [Ch|Ch]; [|lra].
    assert (0 <= (4 - PI) * chamfer d * chamfer d).
    { apply Rmult_le_pos; [apply Rmult_le_pos|]; lra. } lra. }
  repeat split; try assumption.
  - rewrite L. assert (PI * b < PI * a) by (apply Rmult_lt_compat_l; lra). lra.
  - rewrite Vp, Vq. apply Rmult_le_compat; lra.
  - intros N1 N2. rewrite Eq2, Ar. unfold ring_area, chamfer. rewrite N1.
    replace (dim d "R") with 0 by (unfold dim; rewrite N2; reflexivity).
    destruct (Rlt_dec 0 0); [lra|]. fold a b. ring.
  - rewrite Eq2, Ar. unfold ring_area, chamfer. rewrite H0. destruct (Rlt_dec 0 r); [|lra]. fold a b. ring.
  - rewrite Eq2, Ar. unfold ring_area, chamfer. rewrite H0. destruct (Rlt_dec 0 r); [|lra]. fold a b.
    assert (0 < (4 - PI) * r * r).
    { apply Rmult_lt_0_compat; [apply Rmult_lt_0_compat|]; lra. } lra.
Qed.

Example C122_e_witness : exists p q,
  proportioned (mkshape FE None stout_half) /\
  process IEC_60205 (mkshape FE None stout_half) = Parameters p /\
  process IEC_63182 (mkshape FE None stout_half) = Parameters q /\ le p <= 8 /\ 102 <= le q.
Proof.
  assert (V : dim stout_half "A" = 202 /\ dim stout_half "B" = 51 /\ dim stout_half "C" = 1 /\
              dim stout_half "D" = 1 /\ dim stout_half "E" = 201 /\ dim stout_half "F" = 1)
    by (repeat split; reflexivity).
  destruct V as (A & B & C & D & E & F). pose proof PI_RGT_0 as PP. pose proof PI_4 as P4.
  destruct stout_lengths as (L0 & L1 & L2 & M).
  destruct (C118_e_refused_iff IEC_60205 None stout_half) as [_ [p P]]; try lra.
  destruct (C118_e_refused_iff IEC_63182 None stout_half) as [_ [q Q]]; try lra.
  exists p, q. split; [|split; [exact P|split; [exact Q|split]]].
  - unfold proportioned. cbn [shape_family dimensions]. rewrite A, B, C, D, E, F. repeat split; lra.
  - rewrite (process_plain IEC_60205 (mkshape FE None stout_half) I) in P. cbn match in P.
    change (piece_parts (mkshape FE None stout_half)) with (whole (e_sections stout_half)) in P.
    destruct (from_constants_ok _ _ P) as (X & Y & _ & ->). cbn [le].
    destruct (whole_constants (e_sections stout_half)) as [C1 C2]. rewrite C1, C2, L1 in *.
    apply (Rmult_le_reg_r (S2 (e_sections stout_half))); [lra|].
    replace ((3 + PI / 4) ^ 2 / S2 (e_sections stout_half) * S2 (e_sections stout_half))
      with ((3 + PI / 4) ^ 2) by (field; lra).
    assert ((3 + PI / 4) ^ 2 <= 4 ^ 2) by (apply pow_incr; lra). lra.
  - rewrite (process_plain IEC_63182 (mkshape FE None stout_half) I) in Q. cbn match in Q.
    unfold process_63182 in Q. cbn [shape_family dimensions] in Q. rewrite M in Q.
    destruct (Rle_dec 1 0); [discriminate Q|]. destruct (Req_EM_T _ 0); [discriminate Q|].
    destruct (from_length_ok _ _ _ _ Q) as (_ & _ & _ & ->). cbn [le].
    change (total (map fst (e_sections stout_half))) with (S0 (e_sections stout_half)). lra.
Qed.

(* The parameters of a core depend on its material, not on the standard that was set. *)
Theorem C122_core_independent_of_setting : forall a b kf c,
  process_data (mksettings a kf) c = process_data (mksettings b kf) c /\
  (core_material c = Powder -> the_standard (fst (process_data (mksettings a kf) c)) = IEC_63182) /\
  (core_material c <> Powder -> the_standard (fst (process_data (mksettings a kf) c)) = IEC_60205).
Proof.
  intros a b kf c. split; [reflexivity|]. unfold process_data. cbn [the_standard].
  split; intros M.
  - rewrite M. cbn [standard_of]. destruct (process IEC_63182 (core_shape c)); reflexivity.
  - replace (standard_of (core_material c)) with IEC_60205 by (destruct (core_material c); [contradiction|reflexivity|reflexivity]).
    destruct (process IEC_60205 (core_shape c)); reflexivity.
Qed.

(* The user's choice is lost, and a bare piece answers differently after a powder core than
   after a ferrite one. *)
Definition stout_core (m : material) : core :=
  mkcore (mkshape FE None stout_half) Two_piece_set m 1 [] None.

Theorem C122_setting_is_honoured_refuted :
  (forall g, the_standard (fst (process_data g (stout_core Other_material))) = IEC_60205) /\
  (forall g, the_standard (fst (process_data g (stout_core Powder))) = IEC_63182) /\
  forall g, exists p q,
    process (the_standard (fst (process_data g (stout_core Other_material)))) (mkshape FE None stout_half) = Parameters p /\
    process (the_standard (fst (process_data g (stout_core Powder)))) (mkshape FE None stout_half) = Parameters q /\
    le p < le q.
Proof.
  assert (H1 : forall g, the_standard (fst (process_data g (stout_core Other_material))) = IEC_60205).
  { intros [a kf]. apply (C122_core_independent_of_setting a a kf (stout_core Other_material)). discriminate. }
  assert (H2 : forall g, the_standard (fst (process_data g (stout_core Powder))) = IEC_63182).
  { intros [a kf]. apply (C122_core_independent_of_setting a a kf (stout_core Powder)). reflexivity. }
  split; [exact H1|]. split; [exact H2|]. intros g. rewrite H1, H2.
  destruct C122_e_witness as (p & q & _ & P & Q & L1 & L2).
  exists p, q. split; [exact P|]. split; [exact Q|]. lra.
Qed.

(* ---------- C123: the assembled core ---------- *)

(* Pieces in the magnetic path, and the part of the section that is metal. *)
Definition pieces (t : core_type) : R := match t with Two_piece_set => 2 | _ => 1 end.
Definition filling (kf : R) (m : material) : R := match m with Tape_wound => kf | _ => 1 end.

Theorem C123_assembled : forall a kf c p,
  process (standard_of (core_material c)) (core_shape c) = Parameters p ->
  exists q, effective (snd (process_data (mksettings a kf) c)) = Some (Parameters q) /\
    le q = pieces (kind_of_core c) * le p /\
    ae q = ae p * filling kf (core_material c) * INR (stacks c) /\
    ve q = pieces (kind_of_core c) * ve p * filling kf (core_material c) * INR (stacks c) /\
    amin q = amin p * filling kf (core_material c) * INR (stacks c).
Proof.
  intros a kf c p H. unfold process_data. cbn [the_standard]. rewrite H. cbn [snd effective on_parameters].
  eexists. split; [reflexivity|].
  unfold scale_parameters, assemble, apply_stacking_factor, pieces, filling.
  destruct (kind_of_core c); destruct (core_material c); cbn [le ae ve amin stacking_factor]; repeat split; ring.
Qed.

(* Processing a core again, whatever was set meanwhile, gives the same parameters. *)
Theorem C123_parameters_idempotent : forall a b kf c o,
  effective (snd (process_data (mksettings a kf) c)) = Some o -> effective c = None ->
  effective (snd (process_data (mksettings b kf) (snd (process_data (mksettings a kf) c)))) = Some o.
Proof.
  intros a b kf c o. unfold process_data. cbn [the_standard].
  destruct (process (standard_of (core_material c)) (core_shape c)) eqn:P;
    cbn [snd effective core_shape kind_of_core core_material stacks on_parameters];
    rewrite ?P; cbn [snd effective on_parameters]; intros H N; try assumption.
Qed.

(* A refused piece leaves the core as it was. *)
Theorem C123_refused_changes_nothing : forall g c,
  process (standard_of (core_material c)) (core_shape c) = Refused -> snd (process_data g c) = c.
Proof. intros g c H. unfold process_data. cbn [the_standard]. rewrite H. reflexivity. Qed.

(* The gaps are not: each processing multiplies their depths and areas once more. *)
Fixpoint processed (n : nat) (g : settings) (c : core) : core :=
  match n with O => c | S m => processed m g (snd (process_data g c)) end.

Definition times (k : R) (o : option R) : option R :=
  match o with Some x => Some (x * k) | None => None end.

Theorem C123_gaps_grow : forall n g c,
  process (standard_of (core_material c)) (core_shape c) <> Refused ->
  map gap_area (gapping (processed n g c)) = map (fun x => times (INR (stacks c) ^ n) (gap_area x)) (gapping c) /\
  map gap_depth (gapping (processed n g c)) = map (fun x => times (INR (stacks c) ^ n) (gap_depth x)) (gapping c).
Proof.
  induction n as [|n IH]; intros g c H; cbn [processed].
  - split; apply map_ext; intros x; [destruct (gap_area x)|destruct (gap_depth x)];
      cbn [times pow]; rewrite ?Rmult_1_r; reflexivity.
  - assert (E : exists o, snd (process_data g c) =
       mkcore (core_shape c) (kind_of_core c) (core_material c) (stacks c)
              (map (scale_gap (stacks c)) (gapping c)) (Some o)).
    { unfold process_data. cbn [the_standard].
      destruct (process (standard_of (core_material c)) (core_shape c)); try contradiction; eexists; reflexivity. }
    destruct E as [o E]. rewrite E.
    destruct (IH g (mkcore (core_shape c) (kind_of_core c) (core_material c) (stacks c)
              (map (scale_gap (stacks c)) (gapping c)) (Some o)) H) as [A B].
    rewrite A, B. cbn [gapping stacks]. rewrite !map_map.
    split; apply map_ext; intros x; unfold scale_gap; cbn [gap_area gap_depth];
      [destruct (gap_area x)|destruct (gap_depth x)]; cbn [times option_map]; try reflexivity;
      f_equal; cbn [pow]; ring.
Qed.

(* One stack: nothing grows. *)
Theorem C123_single_stack_stable : forall n g c, stacks c = 1%nat ->
  process (standard_of (core_material c)) (core_shape c) <> Refused ->
  map gap_area (gapping (processed n g c)) = map gap_area (gapping c) /\
  map gap_depth (gapping (processed n g c)) = map gap_depth (gapping c).
Proof.
  intros n g c S H. destruct (C123_gaps_grow n g c H) as [A B]. rewrite A, B, S.
  cbn [INR]. rewrite pow1. split; apply map_ext; intros x;
    [destruct (gap_area x)|destruct (gap_depth x)]; cbn [times]; rewrite ?Rmult_1_r; reflexivity.
Qed.

Definition gapped_stack : core :=
  mkcore (mkshape FE None e_drawing) Two_piece_set Other_material 2 [mkgap (Some 10) (Some 100)] None.

Theorem C123_processing_idempotent_refuted : forall g,
  map gap_area (gapping (processed 1 g gapped_stack)) = [Some 200] /\
  map gap_area (gapping (processed 2 g gapped_stack)) = [Some 400] /\
  exists p, effective (processed 1 g gapped_stack) = Some (Parameters p) /\
            effective (processed 2 g gapped_stack) = Some (Parameters p).
Proof.
  intros g.
  assert (V : dim e_drawing "A" = 40 /\ dim e_drawing "B" = 20 /\ dim e_drawing "C" = 10 /\
              dim e_drawing "D" = 14 /\ dim e_drawing "E" = 30 /\ dim e_drawing "F" = 10)
    by (repeat split; reflexivity).
  destruct V as (A & B & C & D & E & F).
  destruct (C118_e_refused_iff IEC_60205 None e_drawing) as [_ [p P]]; try lra.
  assert (N : process (standard_of (core_material gapped_stack)) (core_shape gapped_stack) <> Refused).
  { cbn [gapped_stack core_material core_shape standard_of]. rewrite P. discriminate. }
  destruct (C123_gaps_grow 1 g gapped_stack N) as [G1 _].
  destruct (C123_gaps_grow 2 g gapped_stack N) as [G2 _].
  split; [|split].
  - rewrite G1. cbn [gapped_stack gapping map gap_area times stacks INR pow]. do 2 f_equal. ring.
  - rewrite G2. cbn [gapped_stack gapping map gap_area times stacks INR pow]. do 2 f_equal. ring.
  - destruct g as [a kf].
    destruct (C123_assembled a kf gapped_stack p) as (q & Q & _); [exact P|].
    exists q. cbn [processed]. split; [exact Q|].
    apply (C123_parameters_idempotent a a kf gapped_stack); [exact Q|reflexivity].
Qed.

(* ---------- C124: columns and windows across the width ---------- *)

Definition left_end (s : span) : R := centre s - width s / 2.
Definition right_end (s : span) : R := centre s + width s / 2.
Definition occupies (s : span) (a b : R) : Prop := left_end s = a /\ right_end s = b.
Definition apart (s t : span) : Prop := right_end s <= left_end t \/ right_end t <= left_end s.

(* An E fills its width exactly once: lateral column, window, main column, window, lateral
   column, end to end, with the windows of the per-column listing in those two places. *)
Theorem C124_e_tiles_its_width : forall d, dim d "F" < dim d "E" -> dim d "E" < dim d "A" -> 0 <= dim d "F" ->
  exists post right left_, e_columns d = [post; right; left_] /\
    occupies post (- (dim d "F" / 2)) (dim d "F" / 2) /\
    occupies (e_window d) (dim d "F" / 2) (dim d "E" / 2) /\
    occupies right (dim d "E" / 2) (dim d "A" / 2) /\
    occupies left_ (- (dim d "A" / 2)) (- (dim d "E" / 2)) /\
    exists other, per_column_windows (e_window d) (e_columns d) = [e_window d; e_window d; other] /\
      occupies other (- (dim d "E" / 2)) (- (dim d "F" / 2)).
Proof.
  intros d F E P. eexists _, _, _. split; [reflexivity|].
  unfold occupies, left_end, right_end, e_window. cbn [centre width].
  repeat (split; [lra|]).
  exists (mkspan (- (dim d "F" / 2 + (dim d "E" - dim d "F") / 4)) ((dim d "E" - dim d "F") / 2)).
  split; [|cbn [centre width]; split; field].
  unfold per_column_windows, e_columns. cbn [tl flat_map centre width app].
  destruct (Req_EM_T (dim d "E" / 2 + (dim d "A" - dim d "E") / 4) 0); [lra|].
  destruct (Req_EM_T (- dim d "E" / 2 - (dim d "A" - dim d "E") / 4) 0); [lra|].
  destruct (Rlt_dec (dim d "E" / 2 + (dim d "A" - dim d "E") / 4) 0); [lra|].
  destruct (Rlt_dec (- dim d "E" / 2 - (dim d "A" - dim d "E") / 4) 0); [|lra].
  rewrite Rabs_right by lra. cbn [app]. do 2 f_equal.
  - f_equal. ring.
  - f_equal. f_equal. ring.
Qed.

(* Nothing wound in a window of an E can touch a column. *)
Theorem C124_e_windows_clear_of_columns : forall d w c,
  dim d "F" < dim d "E" -> dim d "E" < dim d "A" -> 0 <= dim d "F" ->
  In w (per_column_windows (e_window d) (e_columns d)) -> In c (e_columns d) -> apart w c.
Proof.
  intros d w c F E P W C.
  destruct (C124_e_tiles_its_width d F E P) as (a & b & l & Ec & (A1 & A2) & (W1 & W2) & (B1 & B2) & (L1 & L2) & o & Pw & (O1 & O2)).
  rewrite Pw in W. rewrite Ec in C. cbn [In] in W, C. unfold apart.
  destruct W as [<- |[<- |[<- |[]]]]; destruct C as [<- |[<- |[<- |[]]]]; lra.
Qed.

Example C124_e_witness :
  occupies (e_window e_drawing) 5 15 /\ List.length (per_column_windows (e_window e_drawing) (e_columns e_drawing)) = 3%nat.
Proof.
  assert (A : dim e_drawing "A" = 40) by reflexivity.
  assert (E : dim e_drawing "E" = 30) by reflexivity.
  assert (F : dim e_drawing "F" = 10) by reflexivity.
  destruct (C124_e_tiles_its_width e_drawing) as (a & b & l & _ & _ & W & _ & _ & o & Pw & _); try lra.
  rewrite Pw. split; [|reflexivity]. rewrite E, F in W.
  replace 5 with (10 / 2) by field. replace 15 with (30 / 2) by field. exact W.
Qed.

(* A U and a C do not: the axis is the middle of the main leg for the columns, but its outer
   face for the window, so the window reaches half a leg into the lateral column. *)
Theorem C124_u_window_clear_of_columns_refuted : forall d, d "H" = None -> negligible d "E" = false ->
  0 < dim d "E" < dim d "A" ->
  exists post lateral, u_columns d = [post; lateral] /\
    right_end post < left_end (u_window d) /\
    left_end lateral < right_end (u_window d) < right_end lateral /\
    right_end (u_window d) - left_end lateral = width lateral / 2 /\
    ~ apart (u_window d) lateral.
Proof.
  intros d H N E. eexists _, _. split; [reflexivity|].
  unfold negligible in *. rewrite H.
  assert (Y : u_window d = mkspan ((dim d "A" - dim d "E") / 2 + dim d "E" / 2) (dim d "E")).
  { unfold u_window, ur_yoke, negligible. destruct (d "E"); [|discriminate N]. rewrite N. reflexivity. }
  rewrite Y. unfold apart, left_end, right_end. cbn [centre width].
  repeat split; try lra.
Qed.

Theorem C124_c_window_clear_of_columns_refuted : forall d, 0 < dim d "E" < dim d "A" ->
  exists post lateral, c_columns d = [post; lateral] /\
    right_end post < left_end (c_window d) /\
    left_end lateral < right_end (c_window d) < right_end lateral /\
    ~ apart (c_window d) lateral.
Proof.
  intros d E. eexists _, _. split; [reflexivity|].
  unfold c_window, apart, left_end, right_end. cbn [centre width]. repeat split; try lra.
Qed.

(* With unequal legs, both columns of a U are as wide as the leg H, while the areas of the
   effective parameters use A - E - H for the other one. *)
Theorem C124_unequal_legs_refuted : forall d, negligible d "H" = false ->
  exists post lateral, u_columns d = [post; lateral] /\ width post = dim d "H" /\ width lateral = dim d "H" /\
    fst (u_legs d) + snd (u_legs d) + dim d "E" = dim d "A" /\
    (width post + width lateral + dim d "E" = dim d "A" <-> dim d "H" = (dim d "A" - dim d "E") / 2).
Proof.
  intros d N. unfold u_columns, u_legs. rewrite N. eexists _, _. split; [reflexivity|].
  cbn [width fst snd]. repeat split; intros; lra.
Qed.

Print Assumptions C122_ring_parameters_ordered.
Print Assumptions C123_gaps_grow.
Print Assumptions C124_e_tiles_its_width.
