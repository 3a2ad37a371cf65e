(* Scaling a piece scales its sections: lengths by k, areas by k^2. *)
From Coq Require Import Reals List Bool String Lra Psatz.
From Verif Require Import ShapeModel ShapeProofs.
Import ListNotations.
Local Open Scope R_scope.
Local Open Scope string_scope.

Lemma whole_scaled : forall k ss, k <> 0 -> scaled_by k (whole ss) (whole (scale_sections k ss)).
Proof.
  intros k ss K. split; unfold whole, scale_sections; cbn [contributions areas]; rewrite !map_map.
  - apply map_ext. intros [l a]. cbn [fst snd]. apply straight_scale, K.
  - apply map_ext. intros [l a]. reflexivity.
Qed.

Lemma halves_scaled : forall k ss, k <> 0 -> scaled_by k (halves ss) (halves (scale_sections k ss)).
Proof.
  intros k ss K. split; unfold halves, scale_sections; cbn [contributions areas]; rewrite !map_map.
  - apply map_ext. intros [l a]. cbn [fst snd]. rewrite straight_scale by exact K.
    unfold half, straight. cbn [fst snd]. unfold Rdiv.
    set (i := / a). set (j := / a ^ 2). clearbody i j. f_equal; field; exact K.
  - apply map_ext. intros [l a]. reflexivity.
Qed.

Lemma doubled_scaled : forall k ss, k <> 0 ->
  scaled_by k (doubled_areas ss) (doubled_areas (scale_sections k ss)).
Proof.
  intros k ss K. split; unfold doubled_areas, scale_sections; cbn [contributions areas]; rewrite !map_map.
  - apply map_ext. intros [l a]. cbn [fst snd].
    replace (2 * (k ^ 2 * a) ^ 2) with (k ^ 4 * (2 * a ^ 2)) by ring.
    unfold Rdiv. rewrite !Rinv_mult. set (i := / a). set (j := / a ^ 2). clearbody i j.
    f_equal; field; exact K.
  - apply map_ext. intros [l a]. cbn [snd]. ring.
Qed.

Ltac letters := rewrite ?dim_scale by discriminate.
Ltac pairs := repeat (apply (f_equal2 (@cons (R * R))); [apply (f_equal2 (@pair R R))|]); [..|reflexivity].

Lemma e_scaled : forall k d, e_sections (scale k d) = scale_sections k (e_sections d).
Proof.
  intros k d. unfold e_sections, scale_sections. letters. cbn [map fst snd]. pairs; field.
Qed.

Lemma sqrt_scale : forall k x, 0 <= k -> sqrt (k ^ 2 * x) = k * sqrt x.
Proof.
  intros k x K. rewrite sqrt_mult_alt by apply pow2_ge_0.
  rewrite <- Rsqr_pow2, sqrt_Rsqr by exact K. reflexivity.
Qed.

Lemma ratio_of : forall k x y x' y', k <> 0 -> x' = k * x -> y' = k * y -> x' / y' = x / y.
Proof. intros k x y x' y' K -> ->. apply ratio, K. Qed.

Lemma ratio_half : forall k x y, k <> 0 -> k * x / 2 / (k * y / 2) = x / 2 / (y / 2).
Proof.
  intros k x y K. replace (k * x / 2) with (k * (x / 2)) by field.
  replace (k * y / 2) with (k * (y / 2)) by field. apply ratio, K.
Qed.

Lemma positive_scale : forall k x, 0 < k -> positive (k * x) = positive x.
Proof.
  intros k x K. unfold positive.
  destruct (Rlt_dec 0 (k * x)); destruct (Rlt_dec 0 x); try reflexivity; exfalso; nra.
Qed.

Lemma nonzero_scale : forall k x, k <> 0 -> nonzero (k * x) = nonzero x.
Proof.
  intros k x K. unfold nonzero.
  destruct (Req_EM_T (k * x) 0) as [E|E]; destruct (Req_EM_T x 0) as [F|F]; try reflexivity; exfalso.
  - destruct (Rmult_integral _ _ E); contradiction.
  - apply E. rewrite F. ring.
Qed.

Lemma lt_scale : forall (A : Type) k x (a b : A), 0 < k ->
  (if Rlt_dec 0 (k * x) then a else b) = (if Rlt_dec 0 x then a else b).
Proof.
  intros A k x a b K.
  destruct (Rlt_dec 0 (k * x)); destruct (Rlt_dec 0 x); try reflexivity; exfalso; nra.
Qed.

Lemma etd_leg_scaled : forall k d, 0 < k -> etd_leg_area (scale k d) = k ^ 2 * etd_leg_area d.
Proof.
  intros k d K. unfold etd_leg_area. letters. rewrite missing_scale by (assumption || discriminate).
  rewrite lt_scale by exact K. rewrite ratio, ratio_half by lra.
  destruct (if missing d "G" then false else if Rlt_dec 0 (dim d "G") then true else false).
  - set (t := acos _). clearbody t. field.
  - set (t := asin _). clearbody t. field.
Qed.

Lemma ec_leg_scaled : forall k d, 0 < k -> ec_leg_area (scale k d) = k ^ 2 * ec_leg_area d.
Proof.
  intros k d K. unfold ec_leg_area. letters. rewrite ratio by lra. set (t := asin _). clearbody t. field.
Qed.

Lemma etd_scaled : forall k d leg, 0 < k ->
  etd_sections (k ^ 2 * leg) (scale k d) = scale_sections k (etd_sections leg d).
Proof.
  intros k d leg K. unfold etd_sections, scale_sections. letters. cbn [map fst snd].
  replace (k ^ 2 * leg / (k * dim d "C")) with (k * (leg / dim d "C"))
    by (replace (k ^ 2 * leg) with (k * (k * leg)) by ring; rewrite ratio by lra; unfold Rdiv; ring).
  set (p := leg / dim d "C"). clearbody p. pairs; field.
Qed.

Lemma el_scaled : forall k d, 0 < k -> el_sections (scale k d) = scale_sections k (el_sections d).
Proof.
  intros k d K. unfold el_sections, scale_sections. letters. cbn [map fst snd].
  assert (Q : 1 / 2 * (1 / 4 * PI * (k * dim d "F") ^ 2 + (k * dim d "F2" - k * dim d "F") * (k * dim d "F"))
      / (k * dim d "F2")
      = k * (1 / 2 * (1 / 4 * PI * dim d "F" ^ 2 + (dim d "F2" - dim d "F") * dim d "F") / dim d "F2")).
  { replace (1 / 2 * (1 / 4 * PI * (k * dim d "F") ^ 2 + (k * dim d "F2" - k * dim d "F") * (k * dim d "F")))
      with (k * (k * (1 / 2 * (1 / 4 * PI * dim d "F" ^ 2 + (dim d "F2" - dim d "F") * dim d "F")))) by field.
    rewrite ratio by lra. unfold Rdiv. ring. }
  rewrite Q. set (q := _ / dim d "F2"). clearbody q. clear Q. pairs; field.
Qed.

Lemma efd_scaled : forall k d, 0 < k -> efd_sections (scale k d) = scale_sections k (efd_sections d).
Proof.
  intros k d K. unfold efd_sections, scale_sections. letters. cbn [map fst snd].
  pairs; try solve [field].
  replace (((k * dim d "C" - k * dim d "F2" - 2 * (k * dim d "K")) / 2) ^ 2 +
           ((k * dim d "B" - k * dim d "D") / 2) ^ 2)
    with (k ^ 2 * (((dim d "C" - dim d "F2" - 2 * dim d "K") / 2) ^ 2 + ((dim d "B" - dim d "D") / 2) ^ 2)) by field.
  rewrite sqrt_scale by lra. field.
Qed.

(* Contributions given one by one. *)
Lemma half_scale : forall k c, k <> 0 -> half (fst c / k, snd c / k ^ 3) = (fst (half c) / k, snd (half c) / k ^ 3).
Proof. intros k [x y] K. unfold half. cbn [fst snd]. f_equal; field; exact K. Qed.

Lemma straight_scale' : forall k l a l' a', k <> 0 -> l' = k * l -> a' = k ^ 2 * a ->
  straight (l', a') = (fst (straight (l, a)) / k, snd (straight (l, a)) / k ^ 3).
Proof. intros k l a l' a' K -> ->. rewrite straight_scale by exact K. reflexivity. Qed.

(* Five contributions, the second one given as a pair. *)
Lemma five_scaled : forall k l1 a1 x y l3 a3 l4 a4 l5 a5 l1' a1' x' y' l3' a3' l4' a4' l5' a5',
  k <> 0 -> l1' = k * l1 -> a1' = k ^ 2 * a1 -> x' = x / k -> y' = y / k ^ 3 ->
  l3' = k * l3 -> a3' = k ^ 2 * a3 -> l4' = k * l4 -> a4' = k ^ 2 * a4 ->
  l5' = k * l5 -> a5' = k ^ 2 * a5 ->
  scaled_by k
    (mkparts (map half [straight (l1, a1); (x, y); straight (l3, a3); straight (l4, a4); straight (l5, a5)])
             [a1; a3; a4; a5])
    (mkparts (map half [straight (l1', a1'); (x', y'); straight (l3', a3'); straight (l4', a4'); straight (l5', a5')])
             [a1'; a3'; a4'; a5']).
Proof.
  intros k l1 a1 x y l3 a3 l4 a4 l5 a5 l1' a1' x' y' l3' a3' l4' a4' l5' a5' K.
  intros E1 E2 E3 E4 E5 E6 E7 E8 E9 E10.
  split; cbn [contributions areas map].
  - rewrite (straight_scale' k l1 a1 l1' a1' K E1 E2), (straight_scale' k l3 a3 l3' a3' K E5 E6),
      (straight_scale' k l4 a4 l4' a4' K E7 E8), (straight_scale' k l5 a5 l5' a5' K E9 E10).
    rewrite !half_scale by exact K. subst x' y'.
    rewrite (half_scale k (x, y) K : half (x / k, y / k ^ 3) = _). reflexivity.
  - subst. reflexivity.
Qed.

Lemma ep_scaled : forall k d, 0 < k -> scaled_by k (ep_parts d) (ep_parts (scale k d)).
Proof.
  intros k d K. unfold ep_parts. letters. rewrite missing_scale by (assumption || discriminate).
  assert (X : (if missing d "K" then k * dim d "F" / 2 else k * dim d "K")
              = k * (if missing d "K" then dim d "F" / 2 else dim d "K"))
    by (destruct (missing d "K"); field).
  rewrite X. set (w := if missing d "K" then dim d "F" / 2 else dim d "K"). clearbody w. clear X.
  replace (k * dim d "E" / 2 / (k * w)) with (dim d "E" / 2 / w)
    by (replace (k * dim d "E" / 2) with (k * (dim d "E" / 2)) by field; rewrite ratio by lra; reflexivity).
  set (al := PI - atan (dim d "E" / 2 / w)). clearbody al.
  set (A := dim d "A"). set (B := dim d "B"). set (C := dim d "C"). set (D := dim d "D").
  set (E := dim d "E"). set (F := dim d "F"). clearbody A B C D E F.
  replace (k * F / 2 + k * w) with (k * (F / 2 + w)) by field.
  set (u := F / 2 + w). 
  replace (2 * (k * B) - 2 * (k * D)) with (k * (2 * B - 2 * D)) by ring.
  set (hh := 2 * B - 2 * D).
  apply five_scaled; try lra; try solve [unfold u, hh; field].
  - rewrite ratio by lra. unfold Rdiv. rewrite !Rinv_mult.
    set (i := / al). set (j := / hh). set (l := ln _). clearbody i j l. field. lra.
  - replace (k * E - k * u) with (k * (E - u)) by ring.
    replace ((k * hh) ^ 2) with (k ^ 2 * hh ^ 2) by ring.
    unfold Rdiv. rewrite !Rinv_mult.
    set (i1 := / al ^ 2). set (i2 := / hh ^ 2). set (i3 := / E). set (i4 := / u). clearbody i1 i2 i3 i4.
    field. lra.
  - replace ((al * (k * E) ^ 2 + 2 * (k * A * (k * C) - PI * (k * E) ^ 2 / 8 - k * E * (k * w))) / (4 * al))
      with (k ^ 2 * ((al * E ^ 2 + 2 * (A * C - PI * E ^ 2 / 8 - E * w)) / (4 * al)))
      by (unfold Rdiv; ring).
    rewrite sqrt_scale by lra. field.
Qed.

Lemma spread_scaled : forall k l d, 0 < k -> spread (k * l) (scale k d) = spread l d.
Proof.
  intros k l d K. unfold spread. letters.
  replace ((k * dim d "E" - k * dim d "F") / 2 + k * l) with (k * ((dim d "E" - dim d "F") / 2 + l)) by field.
  replace (2 * ((k * dim d "E" - k * dim d "F") / 2)) with (k * (2 * ((dim d "E" - dim d "F") / 2))) by field.
  apply ratio; lra.
Qed.

Lemma share_scaled : forall k a d, 0 < k -> share (k ^ 2 * a) (scale k d) = share a d.
Proof.
  intros k a d K. unfold share. letters.
  replace (PI / 2 / 8 * ((k * dim d "E") ^ 2 - (k * dim d "F") ^ 2))
    with (k ^ 2 * (PI / 2 / 8 * (dim d "E" ^ 2 - dim d "F" ^ 2))) by field.
  apply ratio. apply pow_nonzero; lra.
Qed.

Lemma rm_beta_scaled : forall k d, 0 < k -> rm_beta (scale k d) = rm_beta d.
Proof. intros k d K. unfold rm_beta. letters. rewrite ratio by lra. reflexivity. Qed.

Lemma rm_diagonal_scaled : forall k d, 0 < k -> rm_diagonal (scale k d) = k * rm_diagonal d.
Proof.
  intros k d K. unfold rm_diagonal. rewrite rm_beta_scaled by exact K. letters.
  rewrite <- sqrt_scale by lra. f_equal. field.
Qed.

Lemma rm_lmax_scaled : forall k t d, 0 < k -> rm_lmax t (scale k d) = k * rm_lmax t d.
Proof.
  intros k t d K. unfold rm_lmax. rewrite rm_diagonal_scaled by exact K. letters.
  destruct (String.eqb t "1"); [reflexivity|].
  destruct (String.eqb t "2"); [unfold Rdiv; ring|].
  destruct (String.eqb t "3"); [field|]. destruct (String.eqb t "4"); ring.
Qed.

Lemma rm_a7_scaled : forall k t d, 0 < k -> rm_a7 t (scale k d) = k ^ 2 * rm_a7 t d.
Proof.
  intros k t d K. unfold rm_a7. rewrite rm_beta_scaled by exact K. letters.
  set (b := rm_beta d). clearbody b.
  destruct (String.eqb t "1"); [field|].
  destruct (String.eqb t "2"); [field|].
  destruct (String.eqb t "3"); [field|]. destruct (String.eqb t "4"); [field|ring].
Qed.

(* The radial section of RM, PM: diameters d2 and d3, base of thickness h. *)
Lemma radial1 : forall k d2 d3 f D h, k <> 0 ->
  ln (k * d2 / (k * d3)) * f / (D * PI * (k * h)) = ln (d2 / d3) * f / (D * PI * h) / k.
Proof.
  intros k d2 d3 f D h K. rewrite ratio by exact K.
  replace (D * PI * (k * h)) with (k * (D * PI * h)) by ring.
  unfold Rdiv. rewrite (Rinv_mult k). ring.
Qed.

Lemma radial2 : forall k d2 d3 f D h, k <> 0 ->
  (1 / (k * d3) - 1 / (k * d2)) * f / (D * PI * (k * h)) ^ 2
  = (1 / d3 - 1 / d2) * f / (D * PI * h) ^ 2 / k ^ 3.
Proof.
  intros k d2 d3 f D h K.
  replace ((D * PI * (k * h)) ^ 2) with (k ^ 2 * (D * PI * h) ^ 2) by ring.
  unfold Rdiv. rewrite !(Rinv_mult k), (Rinv_mult (k ^ 2)).
  set (i := / d3). set (j := / d2). set (m := / (D * PI * h) ^ 2). clearbody i j m. field. exact K.
Qed.

Lemma rm_scaled : forall k t d, 0 < k -> scaled_by k (rm_parts t d) (rm_parts t (scale k d)).
Proof.
  intros k t d K. unfold rm_parts.
  rewrite rm_beta_scaled, rm_lmax_scaled, rm_a7_scaled, spread_scaled, share_scaled by exact K.
  letters. set (b := rm_beta d). set (f := spread _ d). set (D := share _ d). clearbody b f D.
  set (DA := dim d "A"). set (DB := dim d "B"). set (DD := dim d "D"). set (DE := dim d "E").
  set (DF := dim d "F"). set (DH := dim d "H"). set (DJ := dim d "J"). clearbody DA DB DD DE DF DH DJ.
  replace (k * DB - k * DD) with (k * (DB - DD)) by ring. set (h := DB - DD). clearbody h.
  apply five_scaled; try lra; try solve [field].
  - apply radial1; lra.
  - apply radial2; lra.
  - replace (1 / 2 * ((k * DF) ^ 2 + (k * DH) ^ 2)) with (k ^ 2 * (1 / 2 * (DF ^ 2 + DH ^ 2))) by field.
    rewrite sqrt_scale by lra. field.
Qed.

Lemma pm_gamma_scaled : forall k t d, pm_gamma t (scale k d) = pm_gamma t d.
Proof. intros k t d. reflexivity. Qed.

Lemma pm_a7_scaled : forall k t d, 0 < k -> pm_a7 t (scale k d) = k ^ 2 * pm_a7 t d.
Proof.
  intros k t d K. unfold pm_a7. rewrite rm_beta_scaled, pm_gamma_scaled by exact K. letters.
  set (b := rm_beta d). clearbody b. set (g := pm_gamma t d). clearbody g. field.
Qed.

Lemma pm_scaled : forall k t d, 0 < k -> scaled_by k (pm_parts t d) (pm_parts t (scale k d)).
Proof.
  intros k t d K. unfold pm_parts.
  rewrite rm_beta_scaled, rm_diagonal_scaled, pm_a7_scaled, spread_scaled, share_scaled by exact K.
  letters. set (b := rm_beta d). set (f := spread _ d). set (D := share _ d). clearbody b f D.
  set (DA := dim d "A"). set (DB := dim d "B"). set (DD := dim d "D"). set (DE := dim d "E").
  set (DF := dim d "F"). set (DH := dim d "H"). set (Db := dim d "b"). set (Dt := dim d "t").
  clearbody DA DB DD DE DF DH Db Dt.
  replace (2 * (k * DB) - 2 * (k * DD)) with (k * (2 * DB - 2 * DD)) by ring.
  set (h := 2 * DB - 2 * DD).
  apply five_scaled; try lra; try solve [unfold h; field].
  - replace (D * PI * (k * h) / 2) with (D * PI * (k * (h / 2))) by field.
    replace (D * PI * h / 2) with (D * PI * (h / 2)) by field. apply radial1; lra.
  - replace (D * PI * (k * h) / 2) with (D * PI * (k * (h / 2))) by field.
    replace (D * PI * h / 2) with (D * PI * (h / 2)) by field. apply radial2; lra.
  - replace (1 / 2 * ((k * DF) ^ 2 + (k * DH) ^ 2)) with (k ^ 2 * (1 / 2 * (DF ^ 2 + DH ^ 2))) by field.
    rewrite sqrt_scale by lra. unfold h; field.
Qed.

Lemma pq_scaled_pieces : forall k d, 0 < k ->
  pq_J (scale k d) = k * pq_J d /\ pq_L (scale k d) = k * pq_L d /\
  pq_beta (scale k d) = pq_beta d /\ pq_alpha (scale k d) = pq_alpha d.
Proof.
  intros k d K.
  assert (J : pq_J (scale k d) = k * pq_J d).
  { unfold pq_J. rewrite missing_scale by (assumption || discriminate). letters. destruct (missing d "J"); field. }
  assert (L : pq_L (scale k d) = k * pq_L d).
  { unfold pq_L. rewrite missing_scale by (assumption || discriminate). letters. destruct (missing d "J"); field. }
  repeat split; try assumption.
  - unfold pq_beta. letters. rewrite ratio by lra. reflexivity.
  - unfold pq_alpha. rewrite J, L, ratio by lra. reflexivity.
Qed.

Lemma pq_scaled_shares : forall k d, 0 < k ->
  pq_K (scale k d) = pq_K d /\ pq_f (scale k d) = pq_f d /\ pq_a1 (scale k d) = k ^ 2 * pq_a1 d.
Proof.
  intros k d K. destruct (pq_scaled_pieces k d K) as (J & L & B & A). repeat split.
  - unfold pq_K. rewrite J, L, B, A. letters.
    apply (ratio_of (k ^ 2)); [apply pow_nonzero; lra|field|field].
  - unfold pq_f. rewrite B, A. letters.
    replace (sqrt ((k * dim d "E") ^ 2 + (k * dim d "F") ^ 2 - 2 * (k * dim d "E") * (k * dim d "F") * cos (pq_alpha d - pq_beta d)))
      with (k * sqrt (dim d "E" ^ 2 + dim d "F" ^ 2 - 2 * dim d "E" * dim d "F" * cos (pq_alpha d - pq_beta d)))
      by (rewrite <- sqrt_scale by lra; f_equal; ring).
    apply (ratio_of k); [lra|field|field].
  - unfold pq_a1. rewrite B. letters. field.
Qed.

Lemma pq_scaled_radial : forall k d h, 0 < k ->
  pq_a2 (k * h) (scale k d) = k ^ 2 * pq_a2 h d /\ pq_l2 (scale k d) = k * pq_l2 d.
Proof.
  intros k d h K. destruct (pq_scaled_shares k d K) as (P & Q & _).
  unfold pq_a2, pq_l2. rewrite P, Q. letters. rewrite ratio by lra.
  replace (k * dim d "E" - k * dim d "F") with (k * (dim d "E" - dim d "F")) by ring.
  unfold Rdiv. rewrite !(Rinv_mult k). set (i := / (dim d "E" - dim d "F")). clearbody i.
  set (l := ln _). clearbody l. split; field; lra.
Qed.

Lemma pq_scaled : forall k d, 0 < k -> pq_sections (scale k d) = scale_sections k (pq_sections d).
Proof.
  intros k d K. unfold pq_sections, scale_sections. destruct (pq_scaled_pieces k d K) as (_ & _ & B & A).
  destruct (pq_scaled_shares k d K) as (_ & _ & P). letters. rewrite B, A, P.
  replace (k * dim d "B" - k * dim d "D") with (k * (dim d "B" - dim d "D")) by ring.
  destruct (pq_scaled_radial k d (dim d "B" - dim d "D") K) as (R2 & L2). rewrite R2, L2.
  cbn [map fst snd]. set (q := 1 / sqrt 2). clearbody q. pairs; try reflexivity; field.
Qed.

Lemma pqi_scaled : forall k d, 0 < k -> pqi_sections (scale k d) = scale_sections k (pqi_sections d).
Proof.
  intros k d K. unfold pqi_sections, scale_sections. destruct (pq_scaled_pieces k d K) as (_ & _ & B & A).
  destruct (pq_scaled_shares k d K) as (_ & _ & P). letters. rewrite B, A, P.
  replace (k * dim d "B" - k * dim d "D") with (k * (dim d "B" - dim d "D")) by ring.
  destruct (pq_scaled_radial k d (dim d "B" - dim d "D") K) as (R2 & L2). rewrite R2, L2.
  destruct (pq_scaled_radial k d (dim d "B2") K) as (R2' & _). rewrite R2'.
  cbn [map fst snd]. set (q := 1 / sqrt 2). clearbody q. pairs; try reflexivity; field.
Qed.

Lemma p_scaled : forall k t d, 0 < k -> scaled_by k (p_parts t d) (p_parts t (scale k d)).
Proof.
  intros k t d K. unfold p_parts. letters.
  set (n := p_slots t). clearbody n.
  set (r4 := dim d "A"). set (r3 := dim d "E"). set (r2 := dim d "F"). set (r1 := dim d "H").
  set (B := dim d "B"). set (D := dim d "D"). set (b := dim d "G"). clearbody r4 r3 r2 r1 B D b.
  replace (n * (k * b) / (2 * PI * (k * r3 / 2))) with (n * b / (2 * PI * (r3 / 2)))
    by (replace (2 * PI * (k * r3 / 2)) with (k * (2 * PI * (r3 / 2))) by field;
        replace (n * (k * b)) with (k * (n * b)) by ring; rewrite ratio by lra; reflexivity).
  replace (n * (k * b) / (PI * (k * r3 / 2 + k * r4 / 2))) with (n * b / (PI * (r3 / 2 + r4 / 2)))
    by (replace (PI * (k * r3 / 2 + k * r4 / 2)) with (k * (PI * (r3 / 2 + r4 / 2))) by field;
        replace (n * (k * b)) with (k * (n * b)) by ring; rewrite ratio by lra; reflexivity).
  set (k3 := 1 - n * b / (PI * (r3 / 2 + r4 / 2))). set (k2 := 1 / (1 - n * b / (2 * PI * (r3 / 2)))).
  clearbody k2 k3.
  replace (k * B - k * D) with (k * (B - D)) by ring. set (h := B - D). clearbody h.
  apply five_scaled; try lra; try solve [field].
  - rewrite ratio_half by lra. set (l := ln _). clearbody l.
    replace (PI * (k * h)) with (k * (PI * h)) by ring. unfold Rdiv. rewrite (Rinv_mult k).
    set (i := / (PI * h)). clearbody i. field. lra.
  - replace (2 * (PI * (k * h)) ^ 2) with (k ^ 2 * (2 * (PI * h) ^ 2)) by ring.
    replace (k * r3 / 2 * (k * r2 / 2)) with (k ^ 2 * (r3 / 2 * (r2 / 2))) by field.
    unfold Rdiv. rewrite !(Rinv_mult (k ^ 2)).
    set (i := / (2 * (PI * h) ^ 2)). set (j := / (r3 * / 2 * (r2 * / 2))). clearbody i j. field. lra.
  - replace (((k * r3 / 2) ^ 2 + (k * r4 / 2) ^ 2) / 2) with (k ^ 2 * (((r3 / 2) ^ 2 + (r4 / 2) ^ 2) / 2)) by field.
    rewrite sqrt_scale by lra. field.
  - replace (((k * r1 / 2) ^ 2 + (k * r2 / 2) ^ 2) / 2) with (k ^ 2 * (((r1 / 2) ^ 2 + (r2 / 2) ^ 2) / 2)) by field.
    rewrite sqrt_scale by lra. field.
Qed.

Lemma u_like_scaled : forall k c y h q p s,
  u_like (k * c) (k * y) (k * h) (k * q) (k * p) (k * s) = scale_sections k (u_like c y h q p s).
Proof. intros. unfold u_like, scale_sections. cbn [map fst snd]. pairs; field. Qed.

Lemma plate_scaled : forall k m c y q w1 w2 h t,
  plate_sections m (k * c) (k * y) (k * q) (k * w1) (k * w2) (k * h) (k * t)
  = scale_sections k (plate_sections m c y q w1 w2 h t).
Proof. intros. unfold plate_sections, scale_sections. cbn [map fst snd]. pairs; field. Qed.

Lemma u_legs_scaled : forall k d, negligible (scale k d) "H" = negligible d "H" ->
  u_legs (scale k d) = (k * fst (u_legs d), k * snd (u_legs d)).
Proof.
  intros k d N. unfold u_legs. rewrite N. letters. destruct (negligible d "H"); cbn [fst snd]; f_equal; field.
Qed.

Lemma u_scaled : forall k d, negligible (scale k d) "H" = negligible d "H" ->
  u_sections (scale k d) = scale_sections k (u_sections d).
Proof.
  intros k d N. unfold u_sections. rewrite (u_legs_scaled k d N). destruct (u_legs d) as [p s].
  cbn [fst snd]. rewrite <- u_like_scaled. letters. f_equal; ring.
Qed.

Lemma c_scaled : forall k d, c_sections (scale k d) = scale_sections k (c_sections d).
Proof.
  intros k d. unfold c_sections. rewrite <- u_like_scaled. letters. f_equal; field.
Qed.

Lemma ut_scaled : forall k d, ut_sections (scale k d) = scale_sections k (ut_sections d).
Proof.
  intros k d. unfold ut_sections. rewrite <- u_like_scaled. letters. f_equal; field.
Qed.

Lemma ui_scaled : forall k d, negligible (scale k d) "H" = negligible d "H" ->
  ui_sections (scale k d) = scale_sections k (ui_sections d).
Proof.
  intros k d N. unfold ui_sections. rewrite (u_legs_scaled k d N). destruct (u_legs d) as [p s].
  cbn [fst snd]. rewrite <- plate_scaled. letters. f_equal; ring.
Qed.

Lemma ei_scaled : forall k d, ei_sections (scale k d) = scale_sections k (ei_sections d).
Proof.
  intros k d. unfold ei_sections. rewrite <- plate_scaled. letters. f_equal; field.
Qed.

Lemma t_scaled : forall k d, t_sections (scale k d) = scale_sections k (t_sections d).
Proof. intros k d. unfold t_sections, scale_sections. letters. cbn [map fst snd]. pairs; field. Qed.

Lemma ur_scaled : forall k t d,
  negligible (scale k d) "E" = negligible d "E" -> negligible (scale k d) "F" = negligible d "F" ->
  ur_sections t (scale k d) = scale_sections k (ur_sections t d).
Proof.
  intros k t d NE NF. unfold ur_sections, ur_yoke. rewrite NE, NF. letters.
  assert (Y : (if negligible d "E" then if negligible d "F" then k * dim d "A" - k * dim d "C" - k * dim d "H"
                 else k * dim d "A" - k * dim d "F" - k * dim d "H" else k * dim d "E")
              = k * (if negligible d "E" then if negligible d "F" then dim d "A" - dim d "C" - dim d "H"
                 else dim d "A" - dim d "F" - dim d "H" else dim d "E"))
    by (destruct (negligible d "E"); [destruct (negligible d "F")|]; ring).
  rewrite Y. set (y := if negligible d "E" then _ else _). clearbody y. clear Y.
  unfold scale_sections.
  destruct (String.eqb t "1"); [|destruct (String.eqb t "2"); [|destruct (String.eqb t "3")]];
    cbn [map fst snd]; pairs; field.
Qed.

(* The piece of a scaled shape. *)
Definition scale_shape (k : R) (s : shape) : shape :=
  mkshape (shape_family s) (subtype s) (scale k (dimensions s)).

(* The tests "this letter rounds to zero" of U, UI and UR give the same answer. *)
Definition same_letters (k : R) (s : shape) : Prop :=
  match shape_family s with
  | FU | FUI => negligible (scale k (dimensions s)) "H" = negligible (dimensions s) "H"
  | FUR => negligible (scale k (dimensions s)) "E" = negligible (dimensions s) "E" /\
           negligible (scale k (dimensions s)) "F" = negligible (dimensions s) "F"
  | _ => True
  end.

Lemma piece_scaled : forall k s, 0 < k -> same_letters k s ->
  scaled_by k (piece_parts s) (piece_parts (scale_shape k s)).
Proof.
  intros k [f t d] K L. assert (N : k <> 0) by lra.
  unfold same_letters in L. unfold piece_parts, scale_shape. cbn [shape_family subtype dimensions] in *.
  destruct f.
  - rewrite e_scaled. apply whole_scaled, N.
  - rewrite etd_leg_scaled, etd_scaled by exact K. apply whole_scaled, N.
  - rewrite ec_leg_scaled, etd_scaled by exact K. apply whole_scaled, N.
  - rewrite el_scaled by exact K. apply doubled_scaled, N.
  - rewrite efd_scaled by exact K. apply doubled_scaled, N.
  - apply ep_scaled, K.
  - apply rm_scaled, K.
  - rewrite pq_scaled by exact K. apply halves_scaled, N.
  - apply pm_scaled, K.
  - apply p_scaled, K.
  - rewrite u_scaled by exact L. apply halves_scaled, N.
  - destruct L as [L1 L2]. rewrite ur_scaled by assumption. apply halves_scaled, N.
  - rewrite ut_scaled. apply whole_scaled, N.
  - rewrite t_scaled. apply whole_scaled, N.
  - rewrite c_scaled. apply halves_scaled, N.
  - rewrite ui_scaled by exact L. apply whole_scaled, N.
  - rewrite ei_scaled. apply whole_scaled, N.
  - rewrite pqi_scaled by exact K. apply whole_scaled, N.
Qed.

Lemma divisors_scaled : forall k s, 0 < k -> divisors_fine (scale_shape k s) = divisors_fine s.
Proof.
  intros k [f t d] K. assert (N : k <> 0) by lra. assert (N2 : k ^ 2 <> 0) by (apply pow_nonzero, N).
  unfold divisors_fine, scale_shape. cbn [shape_family subtype dimensions].
  destruct f; try reflexivity; letters;
    rewrite ?rm_a7_scaled, ?pm_a7_scaled, ?(missing_scale k d "K" K) by (exact K || discriminate);
    rewrite ?(proj1 (pq_scaled_pieces k d K));
    replace (k * dim d "B" - k * dim d "D") with (k * (dim d "B" - dim d "D")) by ring;
    replace (k * dim d "E" - k * dim d "F") with (k * (dim d "E" - dim d "F")) by ring;
    replace (k * dim d "E" / 2 + k * dim d "A" / 2) with (k * (dim d "E" / 2 + dim d "A" / 2)) by field;
    rewrite ?positive_scale by exact K; rewrite ?nonzero_scale by assumption; try reflexivity.
  set (n := p_slots _). clearbody n.
  replace (n * (k * dim d "G") / (2 * PI * (k * dim d "E" / 2)))
    with (n * dim d "G" / (2 * PI * (dim d "E" / 2)))
    by (replace (2 * PI * (k * dim d "E" / 2)) with (k * (2 * PI * (dim d "E" / 2))) by field;
        replace (n * (k * dim d "G")) with (k * (n * dim d "G")) by ring; rewrite ratio by lra; reflexivity).
  reflexivity.
Qed.

Lemma angles_scaled : forall k s, 0 < k -> angles_defined (scale_shape k s) = angles_defined s.
Proof.
  intros k [f t d] K. unfold angles_defined, scale_shape. cbn [shape_family dimensions].
  destruct f; try reflexivity; letters; rewrite ?(missing_scale k d "G" K) by discriminate;
    rewrite ?positive_scale by exact K; rewrite ?ratio_half, ?ratio by lra; reflexivity.
Qed.

Lemma pot_scaled : forall k s, 0 < k -> pot_without_base (scale_shape k s) = pot_without_base s.
Proof.
  intros k [f t d] K. assert (N : k <> 0) by lra.
  unfold pot_without_base, scale_shape. cbn [shape_family subtype dimensions].
  destruct f; try reflexivity. destruct t as [t|]; [|reflexivity].
  destruct (scaled_constants k _ _ K (p_scaled k t d K)) as (_ & _ & M). rewrite M. letters.
  replace (k * dim d "B" - k * dim d "D") with (k * (dim d "B" - dim d "D")) by ring.
  replace (k * dim d "E" - k * dim d "F") with (k * (dim d "E" - dim d "F")) by ring.
  replace (k * dim d "E" / 2 + k * dim d "A" / 2) with (k * (dim d "E" / 2 + dim d "A" / 2)) by field.
  set (n := p_slots _). clearbody n.
  replace (n * (k * dim d "G") / (2 * PI * (k * dim d "E" / 2)))
    with (n * dim d "G" / (2 * PI * (dim d "E" / 2)))
    by (replace (2 * PI * (k * dim d "E" / 2)) with (k * (2 * PI * (dim d "E" / 2))) by field;
        replace (n * (k * dim d "G")) with (k * (n * dim d "G")) by ring; rewrite ratio by lra; reflexivity).
  rewrite !positive_scale by (try exact K; apply pow_lt; exact K). rewrite !nonzero_scale by exact N. reflexivity.
Qed.
