(* Lemmas about sections, their sums and their scaling. *)
From Coq Require Import Reals List Bool String Lra Psatz.
From Verif Require Import ShapeModel.
Import ListNotations.
Local Open Scope R_scope.

(* ---------- Sums and minima ---------- *)

Lemma total_map_le : forall (A : Type) (f g : A -> R) (l : list A),
  (forall x, In x l -> f x <= g x) -> total (map f l) <= total (map g l).
Proof.
  intros A f g l; induction l as [|x r IH]; simpl; intros H; [lra|].
  pose proof (H x (or_introl eq_refl)). pose proof (IH (fun y I => H y (or_intror I))). lra.
Qed.

Lemma total_map_scale : forall (A : Type) (k : R) (f : A -> R) (l : list A),
  total (map (fun x => k * f x) l) = k * total (map f l).
Proof. intros A k f l; induction l as [|x r IH]; simpl; [|rewrite IH]; ring. Qed.

Lemma total_map_ext : forall (A : Type) (f g : A -> R) (l : list A),
  (forall x, In x l -> f x = g x) -> total (map f l) = total (map g l).
Proof.
  intros A f g l; induction l as [|x r IH]; simpl; intros H; [reflexivity|].
  rewrite (H x (or_introl eq_refl)), IH; [reflexivity|]. intros y I; apply H; right; exact I.
Qed.

Lemma total_nonneg : forall (A : Type) (f : A -> R) (l : list A),
  (forall x, In x l -> 0 <= f x) -> 0 <= total (map f l).
Proof.
  intros A f l; induction l as [|x r IH]; simpl; intros H; [lra|].
  pose proof (H x (or_introl eq_refl)). pose proof (IH (fun y I => H y (or_intror I))). lra.
Qed.

Lemma total_pos : forall (A : Type) (f : A -> R) (l : list A),
  (forall x, In x l -> 0 <= f x) -> (exists x, In x l /\ 0 < f x) -> 0 < total (map f l).
Proof.
  intros A f l; induction l as [|x r IH]; simpl; intros H [y [I P]]; [contradiction|].
  assert (T : 0 <= total (map f r)) by (apply total_nonneg; intros z J; apply H; right; exact J).
  destruct I as [-> |I]; [lra|].
  pose proof (H x (or_introl eq_refl)).
  assert (0 < total (map f r)); [|lra].
  apply IH; [intros z J; apply H; right; exact J | exists y; split; assumption].
Qed.

Lemma smallest_le : forall l x, smallest x l <= x /\ (forall y, In y l -> smallest x l <= y).
Proof.
  induction l as [|z r IH]; simpl; intros x; [split; [lra|intros y []]|].
  destruct (IH (Rmin x z)) as [H1 H2].
  pose proof (Rmin_l x z). pose proof (Rmin_r x z).
  split; [lra|]. intros y [<- |I]; [lra|apply H2; exact I].
Qed.

Lemma smallest_in : forall l x, smallest x l = x \/ In (smallest x l) l.
Proof.
  induction l as [|z r IH]; simpl; intros x; [left; reflexivity|].
  destruct (IH (Rmin x z)) as [H|H]; [|right; right; exact H].
  rewrite H. unfold Rmin. destruct (Rle_dec x z); [left; reflexivity|right; left; reflexivity].
Qed.

Lemma minimum_le : forall l y, In y l -> minimum l <= y.
Proof.
  intros [|x r] y I; [contradiction|]. destruct (smallest_le r x) as [H1 H2].
  destruct I as [<- |I]; [exact H1|apply H2; exact I].
Qed.

Lemma minimum_in : forall l, l <> [] -> In (minimum l) l.
Proof.
  intros [|x r] N; [contradiction|]. simpl.
  destruct (smallest_in r x) as [H|H]; [left; symmetry; exact H|right; exact H].
Qed.

Lemma minimum_glb : forall l m, l <> [] -> (forall y, In y l -> m <= y) -> m <= minimum l.
Proof. intros l m N H. apply H, minimum_in, N. Qed.

Lemma minimum_pos : forall l, l <> [] -> (0 < minimum l <-> forall y, In y l -> 0 < y).
Proof.
  intros l N; split; intros H.
  - intros y I. pose proof (minimum_le l y I). lra.
  - apply H, minimum_in, N.
Qed.

Lemma minimum_scale : forall k l, 0 < k -> minimum (map (Rmult k) l) = k * minimum l.
Proof.
  intros k [|x r] K; [simpl; ring|]. cbn [map minimum].
  revert x; induction r as [|y r IH]; intros x; cbn [map smallest]; [reflexivity|].
  rewrite <- IH. f_equal.
  unfold Rmin. destruct (Rle_dec x y) as [L|L]; destruct (Rle_dec (k * x) (k * y)) as [M|M]; try reflexivity.
  - exfalso; apply M. apply Rmult_le_compat_l; lra.
  - exfalso; apply L. apply (Rmult_le_reg_l k); lra.
Qed.

(* ---------- Weighted means ---------- *)

(* Lengths that are not negative and areas that are positive. *)
Definition sound (sections : list (R * R)) : Prop :=
  forall s, In s sections -> 0 <= fst s /\ 0 < snd s.

Definition S0 (ss : list (R * R)) := total (map fst ss).
Definition S1 (ss : list (R * R)) := total (map (fun s => fst s / snd s) ss).
Definition S2 (ss : list (R * R)) := total (map (fun s => fst s / snd s ^ 2) ss).
Definition SV (ss : list (R * R)) := total (map (fun s => fst s * snd s) ss).

Lemma div_nonneg : forall x y, 0 <= x -> 0 < y -> 0 <= x / y.
Proof.
  intros x y X Y. apply Rmult_le_pos; [exact X|]. left. apply Rinv_0_lt_compat, Y.
Qed.

Lemma div_pos : forall x y, 0 < x -> 0 < y -> 0 < x / y.
Proof. intros x y X Y. apply Rdiv_lt_0_compat; assumption. Qed.

Lemma cauchy : forall (A : Type) (u v w : A -> R) (l : list A),
  (forall x, In x l -> 0 <= u x /\ 0 <= w x /\ v x ^ 2 <= u x * w x) ->
  0 <= total (map u l) /\ 0 <= total (map w l) /\
  total (map v l) ^ 2 <= total (map u l) * total (map w l).
Proof.
  intros A u v w l; induction l as [|x r IH]; intros H; [simpl; lra|].
  destruct (IH (fun y I => H y (or_intror I))) as (U & W & V).
  destruct (H x (or_introl eq_refl)) as (u0 & w0 & v0).
  cbn [map total].
  set (a := u x) in *. set (b := v x) in *. set (c := w x) in *.
  set (P := total (map u r)) in *. set (Q := total (map v r)) in *. set (T := total (map w r)) in *.
  clearbody a b c P Q T. clear H IH.
  split; [lra|]. split; [lra|].
  assert (K : 2 * (b * Q) <= a * T + c * P).
  { destruct (Rle_dec (2 * (b * Q)) (a * T + c * P)) as [L|L]; [exact L|exfalso].
    assert (N : 0 <= a * T + c * P) by (apply Rplus_le_le_0_compat; apply Rmult_le_pos; assumption).
    assert (M : (a * T + c * P) ^ 2 < (2 * (b * Q)) ^ 2) by nra.
    assert (E : (b ^ 2) * (Q ^ 2) <= (a * c) * (P * T)).
    { apply Rmult_le_compat; try assumption; apply pow2_ge_0. }
    pose proof (pow2_ge_0 (a * T - c * P)). nra. }
  nra.
Qed.

Lemma S_nonneg : forall ss, sound ss -> 0 <= S0 ss /\ 0 <= S1 ss /\ 0 <= S2 ss /\ 0 <= SV ss.
Proof.
  intros ss H. unfold S0, S1, S2, SV.
  repeat split; apply total_nonneg; intros s I; destruct (H s I) as [L A].
  - exact L.
  - apply div_nonneg; assumption.
  - apply div_nonneg; [exact L|]. apply pow_lt, A.
  - apply Rmult_le_pos; lra.
Qed.

Lemma S_pos : forall ss, sound ss -> (exists s, In s ss /\ 0 < fst s) ->
  0 < S0 ss /\ 0 < S1 ss /\ 0 < S2 ss.
Proof.
  intros ss H [s [I P]]. unfold S0, S1, S2.
  repeat split; (apply total_pos; [|exists s; split; [exact I|]]).
  - intros t J; apply (H t J).
  - exact P.
  - intros t J; destruct (H t J); apply div_nonneg; assumption.
  - destruct (H s I). apply div_pos; assumption.
  - intros t J; destruct (H t J); apply div_nonneg; [assumption|apply pow_lt; assumption].
  - destruct (H s I). apply div_pos; [assumption|apply pow_lt; assumption].
Qed.

(* (sum l/A)^2 <= (sum l) (sum l/A^2). *)
Lemma S1_S0_S2 : forall ss, sound ss -> S1 ss ^ 2 <= S0 ss * S2 ss.
Proof.
  intros ss H. unfold S0, S1, S2.
  apply (cauchy _ fst (fun s => fst s / snd s) (fun s => fst s / snd s ^ 2) ss).
  intros s I; destruct (H s I) as [L A]. repeat split.
  - exact L.
  - apply div_nonneg; [exact L|apply pow_lt, A].
  - right. field. lra.
Qed.

(* (sum l)^2 <= (sum l A) (sum l/A). *)
Lemma S0_SV_S1 : forall ss, sound ss -> S0 ss ^ 2 <= SV ss * S1 ss.
Proof.
  intros ss H. unfold S0, S1, SV.
  apply (cauchy _ (fun s => fst s * snd s) fst (fun s => fst s / snd s) ss).
  intros s I; destruct (H s I) as [L A]. repeat split.
  - apply Rmult_le_pos; lra.
  - apply div_nonneg; assumption.
  - right. field. lra.
Qed.

(* (sum l/A)^3 <= (sum l A) (sum l/A^2)^2. *)
Lemma S1_cube : forall ss, sound ss -> S1 ss ^ 3 <= SV ss * S2 ss ^ 2.
Proof.
  intros ss H. destruct (S_nonneg ss H) as (N0 & N1 & N2 & NV).
  pose proof (S1_S0_S2 ss H) as C1. pose proof (S0_SV_S1 ss H) as C2.
  set (a := S0 ss) in *. set (b := S1 ss) in *. set (c := S2 ss) in *. set (v := SV ss) in *.
  clearbody a b c v. clear H.
  destruct (Req_dec b 0) as [-> |B].
  { simpl. rewrite Rmult_0_l. apply Rmult_le_pos; [exact NV|]. apply Rmult_le_pos; [exact N2|]. lra. }
  apply (Rmult_le_reg_r b); [lra|].
  assert (b ^ 4 <= (a * c) ^ 2).
  { replace (b ^ 4) with ((b ^ 2) ^ 2) by ring. apply pow_incr. split; [apply pow2_ge_0|exact C1]. }
  assert (a ^ 2 * c ^ 2 <= v * b * c ^ 2).
  { apply Rmult_le_compat_r; [apply pow2_ge_0|exact C2]. }
  nra.
Qed.

(* The mean lies between bounds of the areas. *)
Lemma mean_lower : forall ss m, sound ss -> (forall s, In s ss -> m <= snd s) ->
  m * S2 ss <= S1 ss.
Proof.
  intros ss m H B. unfold S1, S2. rewrite <- total_map_scale. apply total_map_le.
  intros s I. destruct (H s I) as [L A]. pose proof (B s I) as M.
  replace (fst s / snd s) with (snd s * (fst s / snd s ^ 2)) by (field; lra).
  apply Rmult_le_compat_r; [|exact M]. apply div_nonneg; [exact L|apply pow_lt, A].
Qed.

Lemma mean_upper : forall ss m, sound ss -> (forall s, In s ss -> snd s <= m) ->
  S1 ss <= m * S2 ss.
Proof.
  intros ss m H B. unfold S1, S2. rewrite <- total_map_scale. apply total_map_le.
  intros s I. destruct (H s I) as [L A]. pose proof (B s I) as M.
  replace (fst s / snd s) with (snd s * (fst s / snd s ^ 2)) by (field; lra).
  apply Rmult_le_compat_r; [|exact M]. apply div_nonneg; [exact L|apply pow_lt, A].
Qed.

(* ---------- The constants of the three kinds of lists ---------- *)

Lemma whole_constants : forall ss,
  constant1 (whole ss) = S1 ss /\ constant2 (whole ss) = S2 ss.
Proof.
  intros ss. unfold constant1, constant2, whole, S1, S2. cbn [contributions].
  rewrite !map_map. split; reflexivity.
Qed.

Lemma halves_constants : forall ss,
  constant1 (halves ss) = S1 ss / 2 /\ constant2 (halves ss) = S2 ss / 2.
Proof.
  intros ss. unfold constant1, constant2, halves, S1, S2. cbn [contributions].
  rewrite !map_map.
  replace (total (map (fun s => fst s / snd s ^ 2) ss) / 2)
    with (/ 2 * total (map (fun s => fst s / snd s ^ 2) ss)) by lra.
  replace (total (map (fun s => fst s / snd s) ss) / 2)
    with (/ 2 * total (map (fun s => fst s / snd s) ss)) by lra.
  rewrite <- !total_map_scale.
  split; apply total_map_ext; intros s _; unfold half, straight; simpl; lra.
Qed.

Lemma doubled_constants : forall ss,
  constant1 (doubled_areas ss) = S1 ss / 2 /\ constant2 (doubled_areas ss) = S2 ss / 4.
Proof.
  intros ss. unfold constant1, constant2, doubled_areas, S1, S2. cbn [contributions].
  rewrite !map_map. cbn [fst snd].
  replace (total (map (fun s => fst s / snd s ^ 2) ss) / 4)
    with (/ 4 * total (map (fun s => fst s / snd s ^ 2) ss)) by lra.
  replace (total (map (fun s => fst s / snd s) ss) / 2)
    with (/ 2 * total (map (fun s => fst s / snd s) ss)) by lra.
  rewrite <- !total_map_scale. split; apply total_map_ext; intros s _; [lra|].
  unfold Rdiv. destruct (Req_dec (snd s) 0) as [Z|Z].
  - rewrite Z. replace (2 * 0 ^ 2) with 0 by ring. replace (0 ^ 2) with 0 by ring.
    assert (I : / 0 = 0) by apply Rinv_0. rewrite I. ring.
  - field. exact Z.
Qed.

(* ---------- Outcomes ---------- *)

Lemma from_constants_ok : forall p q, from_constants p = Parameters q ->
  0 < constant1 p /\ 0 < constant2 p /\ 0 < minimum_area p /\
  q = mkparameters (constant1 p ^ 2 / constant2 p) (constant1 p / constant2 p)
        (constant1 p ^ 3 / constant2 p ^ 2) (minimum_area p).
Proof.
  intros p q. unfold from_constants.
  destruct (Rle_dec (constant1 p) 0) as [|A]; [discriminate|].
  destruct (Rle_dec (constant2 p) 0) as [|B]; [discriminate|].
  destruct (Rle_dec (minimum_area p) 0) as [|C]; [discriminate|].
  intros H; injection H as <-. repeat split; lra.
Qed.

Lemma from_constants_accepts : forall p,
  0 < constant1 p -> 0 < constant2 p -> 0 < minimum_area p ->
  from_constants p = Parameters (mkparameters (constant1 p ^ 2 / constant2 p)
      (constant1 p / constant2 p) (constant1 p ^ 3 / constant2 p ^ 2) (minimum_area p)).
Proof.
  intros p A B C. unfold from_constants.
  destruct (Rle_dec (constant1 p) 0); [lra|].
  destruct (Rle_dec (constant2 p) 0); [lra|].
  destruct (Rle_dec (minimum_area p) 0); [lra|]. reflexivity.
Qed.

Lemma from_constants_refuses : forall p, minimum_area p <= 0 -> from_constants p = Refused.
Proof.
  intros p M. unfold from_constants.
  destruct (Rle_dec (constant1 p) 0); [reflexivity|].
  destruct (Rle_dec (constant2 p) 0); [reflexivity|].
  destruct (Rle_dec (minimum_area p) 0); [reflexivity|contradiction].
Qed.

Lemma from_length_ok : forall l a m q, from_length_and_area l a m = Parameters q ->
  0 < l /\ 0 < a /\ 0 < m /\ q = mkparameters l a (l * a) m.
Proof.
  intros l a m q. unfold from_length_and_area.
  destruct (Rle_dec l 0) as [|A]; [discriminate|].
  destruct (Rle_dec a 0) as [|B]; [discriminate|].
  destruct (Rle_dec m 0) as [|C]; [discriminate|].
  intros H; injection H as <-. repeat split; lra.
Qed.

Lemma from_length_accepts : forall l a m, 0 < l -> 0 < a -> 0 < m ->
  from_length_and_area l a m = Parameters (mkparameters l a (l * a) m).
Proof.
  intros l a m A B C. unfold from_length_and_area.
  destruct (Rle_dec l 0); [lra|]. destruct (Rle_dec a 0); [lra|]. destruct (Rle_dec m 0); [lra|].
  reflexivity.
Qed.

(* A piece with parameters got past every earlier check. *)
Lemma process_parameters : forall std s q, process std s = Parameters q ->
  subtype_fine s = true /\ divisors_fine s = true /\ angles_defined s = true /\
  match std with
  | IEC_60205 => from_constants (piece_parts s)
  | IEC_63182 => process_63182 s
  end = Parameters q.
Proof.
  intros std s q. unfold process.
  destruct (subtype_fine s); cbn [negb]; [|discriminate].
  destruct (match shape_family s with FEFD => missing (dimensions s) "q" | _ => false end); [discriminate|].
  destruct (pot_without_base s); [discriminate|].
  destruct (divisors_fine s); cbn [negb]; [|discriminate].
  destruct (angles_defined s); cbn [negb]; [|discriminate].
  intros H; repeat split; exact H.
Qed.

(* Families without a divisor or an angle: the two branches are all there is. *)
Lemma process_plain : forall std s,
  match shape_family s with FE | FU | FUT | FT | FC | FUI | FEI => True | _ => False end ->
  process std s = match std with
                  | IEC_60205 => from_constants (piece_parts s)
                  | IEC_63182 => process_63182 s
                  end.
Proof.
  intros std [f t d] H. cbn [shape_family] in H.
  destruct f; try contradiction; unfold process, subtype_fine, pot_without_base, divisors_fine,
    angles_defined; cbn [shape_family subtype dimensions negb]; reflexivity.
Qed.

(* The IEC 63182 branch of every family but E and T only differs in how the volume is
   computed. *)
Lemma default_63182 : forall s q,
  match shape_family s with FE | FT => False | _ => True end ->
  process_63182 s = Parameters q -> from_constants (piece_parts s) = Parameters q.
Proof.
  intros s q F H. unfold process_63182 in H.
  assert (G : (if Rle_dec (minimum_area (piece_parts s)) 0 then Refused
               else if Req_EM_T (constant2 (piece_parts s)) 0 then Outside
               else from_length_and_area (constant1 (piece_parts s) ^ 2 / constant2 (piece_parts s))
                      (constant1 (piece_parts s) / constant2 (piece_parts s))
                      (minimum_area (piece_parts s))) = Parameters q).
  { destruct (shape_family s); try contradiction; exact H. }
  clear H. set (p := piece_parts s) in *. clearbody p. clear F.
  destruct (Rle_dec (minimum_area p) 0) as [|M]; [discriminate|].
  destruct (Req_EM_T (constant2 p) 0) as [|Z]; [discriminate|].
  destruct (from_length_ok _ _ _ _ G) as (A & B & C & ->).
  assert (P2 : 0 < constant2 p).
  { destruct (Rle_dec (constant2 p) 0) as [N|N]; [exfalso|lra].
    assert (X : constant1 p ^ 2 / constant2 p * constant2 p <= 0).
    { replace (constant1 p ^ 2 / constant2 p * constant2 p) with (constant1 p ^ 2) by (field; exact Z).
      assert (constant1 p ^ 2 = (constant1 p ^ 2 / constant2 p) * constant2 p) by (field; exact Z). nra. }
    replace (constant1 p ^ 2 / constant2 p * constant2 p) with (constant1 p ^ 2) in X by (field; exact Z).
    assert (constant1 p <> 0).
    { intros E. rewrite E in B. unfold Rdiv in B. lra. }
    pose proof (pow2_ge_0 (constant1 p)). nra. }
  assert (P1 : 0 < constant1 p).
  { replace (constant1 p) with (constant1 p / constant2 p * constant2 p) by (field; exact Z).
    apply Rmult_lt_0_compat; assumption. }
  rewrite (from_constants_accepts p P1 P2 C).
  f_equal. f_equal. field. exact Z.
Qed.

(* ---------- Scaling ---------- *)

Local Open Scope string_scope.

(* Every length multiplied by k; the opening angle of PM is not a length. *)
Definition scale (k : R) (d : dims) : dims :=
  fun x => if String.eqb x "alpha" then d x else option_map (Rmult k) (d x).

Definition scale_sections (k : R) (ss : list (R * R)) : list (R * R) :=
  map (fun s => (k * fst s, k ^ 2 * snd s)) ss.

(* What scaling does to contributions and areas. *)
Definition scaled_by (k : R) (p p' : parts) : Prop :=
  contributions p' = map (fun c => (fst c / k, snd c / k ^ 3)) (contributions p) /\
  areas p' = map (Rmult (k ^ 2)) (areas p).

Lemma dim_scale : forall k d x, x <> "alpha" -> dim (scale k d) x = k * dim d x.
Proof.
  intros k d x N. unfold dim, scale. apply String.eqb_neq in N. rewrite N.
  destruct (d x) as [v|]; simpl; [reflexivity|ring].
Qed.

Lemma missing_scale : forall k d x, 0 < k -> x <> "alpha" -> missing (scale k d) x = missing d x.
Proof.
  intros k d x K N. unfold missing, scale. apply String.eqb_neq in N. rewrite N.
  destruct (d x) as [v|]; simpl; [|reflexivity].
  destruct (Req_EM_T v 0) as [Z|Z]; destruct (Req_EM_T (k * v) 0) as [Y|Y]; try reflexivity; exfalso.
  - apply Y. rewrite Z. ring.
  - destruct (Rmult_integral _ _ Y); lra.
Qed.

(* A common factor cancels, also over zero: / 0 is 0. *)
Lemma ratio : forall k x y, k <> 0 -> k * x / (k * y) = x / y.
Proof.
  intros k x y K. unfold Rdiv. rewrite Rinv_mult. set (i := / y). clearbody i. field. exact K.
Qed.

Lemma straight_scale : forall k l a, k <> 0 ->
  straight (k * l, k ^ 2 * a) = (l / a / k, l / a ^ 2 / k ^ 3).
Proof.
  intros k l a K. unfold straight. cbn [fst snd].
  replace ((k ^ 2 * a) ^ 2) with (k ^ 4 * a ^ 2) by ring.
  unfold Rdiv. rewrite !Rinv_mult. set (i := / a). set (j := / a ^ 2). clearbody i j.
  f_equal; field; exact K.
Qed.

Lemma scaled_constants : forall k p p', 0 < k -> scaled_by k p p' ->
  constant1 p' = constant1 p / k /\ constant2 p' = constant2 p / k ^ 3 /\
  minimum_area p' = k ^ 2 * minimum_area p.
Proof.
  intros k p p' K [C A]. unfold constant1, constant2, minimum_area. rewrite C, A, !map_map.
  cbn [fst snd]. rewrite minimum_scale by (apply pow_lt; exact K).
  repeat split.
  - replace (total (map fst (contributions p)) / k) with (/ k * total (map fst (contributions p))) by (unfold Rdiv; ring).
    rewrite <- total_map_scale. apply total_map_ext. intros c _. unfold Rdiv; ring.
  - replace (total (map snd (contributions p)) / k ^ 3) with (/ k ^ 3 * total (map snd (contributions p))) by (unfold Rdiv; ring).
    rewrite <- total_map_scale. apply total_map_ext. intros c _. unfold Rdiv; ring.
Qed.

Definition scale_parameters_by (k : R) (p : parameters) : parameters :=
  mkparameters (k * le p) (k ^ 2 * ae p) (k ^ 3 * ve p) (k ^ 2 * amin p).

Lemma scaled_outcome : forall k p p', 0 < k -> scaled_by k p p' ->
  from_constants p' = on_parameters (scale_parameters_by k) (from_constants p).
Proof.
  intros k p p' K H. destruct (scaled_constants k p p' K H) as (C1 & C2 & M).
  unfold from_constants. rewrite C1, C2, M.
  assert (K3 : 0 < k ^ 3) by (apply pow_lt; exact K).
  assert (K2 : 0 < k ^ 2) by (apply pow_lt; exact K).
  set (x := constant1 p). set (y := constant2 p). set (m := minimum_area p).
  assert (D1 : x / k <= 0 <-> x <= 0).
  { split; intros L.
    - replace x with (x / k * k) by (field; lra). nra.
    - unfold Rdiv. pose proof (Rinv_0_lt_compat k K). nra. }
  assert (D2 : y / k ^ 3 <= 0 <-> y <= 0).
  { split; intros L.
    - replace y with (y / k ^ 3 * k ^ 3) by (field; lra). nra.
    - unfold Rdiv. pose proof (Rinv_0_lt_compat (k ^ 3) K3). nra. }
  assert (D3 : k ^ 2 * m <= 0 <-> m <= 0) by (split; intros L; nra).
  destruct (Rle_dec (x / k) 0) as [E|E]; destruct (Rle_dec x 0) as [E'|E']; try tauto.
  destruct (Rle_dec (y / k ^ 3) 0) as [F|F]; destruct (Rle_dec y 0) as [F'|F']; try tauto.
  destruct (Rle_dec (k ^ 2 * m) 0) as [G|G]; destruct (Rle_dec m 0) as [G'|G']; try tauto.
  cbn [on_parameters]. unfold scale_parameters_by. cbn [le ae ve amin].
  assert (y <> 0) by lra. assert (k <> 0) by lra.
  f_equal. f_equal; field; auto.
Qed.
