(** * The sections behind the smallest area (C119) and the default opening (C121) *)
From Coq Require Import Reals List Lra String Bool.
From Verif Require Import ShapeModel ShapeProofs ShapeProperties.
Import ListNotations.
Local Open Scope R_scope.
Local Open Scope string_scope.

(** ETD and EC: the smallest of both legs together, the yoke and the round post. *)
Theorem C119_etd_areas : forall f t d p, f = FETD \/ f = FEC ->
  process IEC_60205 (mkshape f t d) = Parameters p ->
  let legs := 2 * (match f with FEC => ec_leg_area d | _ => etd_leg_area d end) in
  let yoke := 2 * dim d "C" * (dim d "B" - dim d "D") in
  let post := PI * (dim d "F" / 2) ^ 2 in
  amin p = Rmin legs (Rmin yoke post).
Proof.
  intros f t d p F H legs yoke post.
  destruct (process_parameters _ _ _ H) as (_ & V & _ & G).
  destruct (from_constants_ok _ _ G) as (_ & _ & _ & ->). cbn [amin]. clear H G. unfold minimum_area.
  assert (C : dim d "C" <> 0).
  { destruct F; subst f; unfold divisors_fine in V; cbn [shape_family dimensions] in V;
      apply andb_prop in V; destruct V as [V _]; unfold nonzero in V; destruct (Req_EM_T (dim d "C") 0); [discriminate|assumption|discriminate|assumption]. }
  assert (E : areas (piece_parts (mkshape f t d)) = [legs; yoke; post; (legs + yoke) / 2; (yoke + post) / 2]).
  { destruct F; subst f; unfold piece_parts; cbn [shape_family dimensions]; unfold whole, etd_sections; cbn [areas map snd];
      unfold legs, yoke, post;
      [replace (2 * dim d "C" * (etd_leg_area d / dim d "C")) with (2 * etd_leg_area d) by (field; exact C)
      |replace (2 * dim d "C" * (ec_leg_area d / dim d "C")) with (2 * ec_leg_area d) by (field; exact C)]; reflexivity. }
  rewrite E. cbn [minimum smallest]. unfold Rmin. repeat destruct (Rle_dec _ _); lra.
Qed.

(** A piece with a plate: the smallest of the columns, the yoke and the plate. *)
Theorem C119_plate_areas : forall f t d p, f = FUI \/ f = FEI ->
  process IEC_60205 (mkshape f t d) = Parameters p ->
  let m := match f with FEI => 2 | _ => 1 end in
  let first := match f with FEI => (dim d "A" - dim d "E") / 2 | _ => fst (u_legs d) end in
  let second := match f with FEI => dim d "F" / 2 | _ => snd (u_legs d) end in
  amin p = Rmin (Rmin (m * dim d "C" * first) (m * dim d "C" * second))
                (Rmin (m * dim d "C" * (dim d "B" - dim d "D")) (m * dim d "C" * dim d "B2")).
Proof.
  intros f t d p F H m first second.
  destruct (process_parameters _ _ _ H) as (_ & _ & _ & G).
  destruct (from_constants_ok _ _ G) as (_ & _ & _ & ->). cbn [amin]. clear H G. unfold minimum_area.
  set (a1 := m * dim d "C" * first). set (a2 := m * dim d "C" * second).
  set (ah := m * dim d "C" * (dim d "B" - dim d "D")). set (at_ := m * dim d "C" * dim d "B2").
  assert (E : areas (piece_parts (mkshape f t d)) = [a1; a2; ah; at_; (a1 + ah) / 2; (a2 + ah) / 2; (a1 + at_) / 2; (a2 + at_) / 2]).
  { destruct F; subst f; unfold piece_parts; cbn [shape_family dimensions].
    - unfold ui_sections, first, second, a1, a2, ah, at_, first, second, m in *. destruct (u_legs d) as [x y]. reflexivity.
    - reflexivity. }
  rewrite E. cbn [minimum smallest]. clearbody a1 a2 ah at_. clear. unfold Rmin. repeat destruct (Rle_dec _ _); lra.
Qed.

(** A PM piece drawn without its opening angle is one of 120 degrees for subtype 1 and
    of 90 for the others. *)
Definition opened (angle : R) (d : dims) : dims := fun x => if String.eqb x "alpha" then Some angle else d x.
Theorem C121_pm_default_opening : forall std t d, d "alpha" = None ->
  process std (mkshape FPM (Some t) d) =
  process std (mkshape FPM (Some t) (opened (if String.eqb t "1" then 120 else 90) d)).
Proof.
  intros std t d N. set (g := if String.eqb t "1" then 120 else 90).
  assert (A : forall x, String.eqb x "alpha" = false -> dim (opened g d) x = dim d x).
  { intros x X. unfold dim, opened. rewrite X. reflexivity. }
  assert (M : forall x, String.eqb x "alpha" = false -> opened g d x = d x).
  { intros x X. unfold opened. rewrite X. reflexivity. }
  assert (G : pm_gamma t (opened g d) = pm_gamma t d).
  { unfold pm_gamma. rewrite N. reflexivity. }
  assert (A7 : pm_a7 t (opened g d) = pm_a7 t d).
  { unfold pm_a7, rm_beta. rewrite G. rewrite !A by reflexivity. reflexivity. }
  assert (P : pm_parts t (opened g d) = pm_parts t d).
  { unfold pm_parts. rewrite A7. unfold spread, share, rm_diagonal, rm_beta. rewrite !A by reflexivity. reflexivity. }
  unfold process, process_63182, subtype_fine, pot_without_base, divisors_fine, angles_defined, piece_parts.
  cbn [shape_family dimensions subtype]. rewrite A7, P, !A by reflexivity. reflexivity.
Qed.
Example C121_pm_opening_witness : exists d : dims, d "alpha" = None /\ dim d "E" = 20.
Proof. exists (table [("E", 20); ("F", 10)]). split; reflexivity. Qed.

(** Both kinds of piece are accepted when drawn with sensible letters. *)
Definition round_post : dims :=
  table [("A", 40); ("B", 20); ("C", 10); ("D", 14); ("E", 30); ("F", 10); ("G", 30)].
Lemma round_post_leg : etd_leg_area round_post = 50.
Proof.
  unfold etd_leg_area.
  assert (G : missing round_post "G" = false).
  { unfold missing, round_post. cbn [table String.eqb Ascii.eqb Bool.eqb]. destruct (Req_EM_T 30 0); [lra|reflexivity]. }
  rewrite G.
  assert (V : dim round_post "A" = 40 /\ dim round_post "C" = 10 /\ dim round_post "E" = 30 /\ dim round_post "G" = 30)
    by (repeat split; reflexivity).
  destruct V as (A & C & E & GG). rewrite A, C, E, GG. destruct (Rlt_dec 0 30) as [_|N]; [|exfalso; lra]. cbv zeta.
  replace (30 / 2 / (30 / 2)) with 1 by field. rewrite acos_1. replace (2 * 0) with 0 by ring. rewrite sin_0. field.
Qed.
Example C119_etd_witness : exists p, process IEC_60205 (mkshape FETD None round_post) = Parameters p /\ amin p = PI * (10 / 2) ^ 2.
Proof.
  assert (V : dim round_post "A" = 40 /\ dim round_post "B" = 20 /\ dim round_post "C" = 10 /\
              dim round_post "D" = 14 /\ dim round_post "E" = 30 /\ dim round_post "F" = 10 /\ dim round_post "G" = 30)
    by (repeat split; reflexivity).
  destruct V as (A & B & C & D & E & F & G).
  assert (M : missing round_post "G" = false).
  { unfold missing, round_post. cbn [table String.eqb Ascii.eqb Bool.eqb]. destruct (Req_EM_T 30 0); [lra|reflexivity]. }
  assert (PP := PI_RGT_0). assert (P4 := PI_4).
  assert (K : exists p, process IEC_60205 (mkshape FETD None round_post) = Parameters p).
  { unfold process, subtype_fine, pot_without_base, divisors_fine, angles_defined. cbn [shape_family subtype dimensions negb].
    rewrite M, C, E, G. unfold nonzero, positive, within.
    destruct (Req_EM_T 10 0); [lra|]. destruct (Req_EM_T 30 0); [lra|]. destruct (Rlt_dec 0 30); [|lra].
    replace (30 / 2 / (30 / 2)) with 1 by field. destruct (Rle_dec (-(1)) 1); [|lra]. destruct (Rle_dec 1 1); [|lra]. cbn [andb negb].
    change (piece_parts (mkshape FETD None round_post)) with (whole (etd_sections (etd_leg_area round_post) round_post)).
    apply mean_accepts; [discriminate| |].
    - intros x J. unfold etd_sections in J. rewrite round_post_leg, B, C, D, E, F in J. cbn [In] in J.
      repeat (destruct J as [<- |J]; [cbn [fst snd]; split; nra|]). contradiction.
    - eexists. split; [left; reflexivity|]. cbn [fst]. rewrite D. lra. }
  destruct K as (p & K). exists p. split; [exact K|].
  pose proof (C119_etd_areas FETD None round_post p (or_introl eq_refl) K) as Q. cbv zeta beta match in Q. cbv iota in Q.
  rewrite round_post_leg, B, C, D, F in Q. rewrite Q. unfold Rmin. repeat destruct (Rle_dec _ _); nra.
Qed.

(** UR with round posts (subtype 2): when the yoke has the section of the posts, that
    is the effective area, corners included. *)
Theorem C119_ur_uniform : forall d p,
  PI * (dim d "C" / 2) ^ 2 = dim d "C" * (dim d "B" - dim d "D") ->
  process IEC_60205 (mkshape FUR (Some "2") d) = Parameters p ->
  ae p = dim d "C" * (dim d "B" - dim d "D") /\ amin p = dim d "C" * (dim d "B" - dim d "D").
Proof.
  intros d p U H. destruct (process_parameters _ _ _ H) as (_ & _ & _ & G).
  destruct (from_constants_ok _ _ G) as (C1 & C2 & M & ->). cbn [ae amin]. clear H G.
  unfold piece_parts in *. cbn [shape_family dimensions subtype] in *. unfold ur_sections in *.
  cbn [String.eqb Ascii.eqb Bool.eqb] in *. rewrite U in *.
  set (s := dim d "C" * (dim d "B" - dim d "D")) in *. clearbody s.
  assert (Ps : 0 < s).
  { apply Rlt_le_trans with (1 := M). apply minimum_le. left. reflexivity. }
  split.
  - unfold constant1, constant2 in *. cbn [halves contributions map total fst snd half straight] in *.
    replace ((s + s) / 2) with s in * by field.
    match type of C1 with 0 < ?x => set (c1 := x) in * end.
    match type of C2 with 0 < ?x => set (c2 := x) in * end.
    assert (E : c1 = s * c2) by (unfold c1, c2; field; lra).
    rewrite E. field. lra.
  - unfold minimum_area. cbn [halves areas map snd minimum smallest].
    unfold Rmin. repeat destruct (Rle_dec _ _); lra.
Qed.
Example C119_ur_witness : exists d : dims, dim d "C" = 4 /\
  PI * (dim d "C" / 2) ^ 2 = dim d "C" * (dim d "B" - dim d "D").
Proof. exists (table [("C", 4); ("B", 10 + PI); ("D", 10)]). split; [reflexivity|]. cbn [dim table String.eqb Ascii.eqb Bool.eqb]. unfold dim. cbn. field. Qed.

(** EL: no section used is larger than the yoke, the mean of the width of the piece and
    the half circle around the post, times the thickness left by the window; nor than the
    post or the legs. *)
Theorem C119_el_yoke : forall t d p, process IEC_60205 (mkshape FEL t d) = Parameters p ->
  amin p <= (dim d "C" + dim d "F2" - dim d "F" + PI * dim d "F" / 2) * (dim d "B" - dim d "D") /\
  amin p <= PI * (dim d "F" / 2) ^ 2 + (dim d "F2" - dim d "F") * dim d "F".
Proof.
  intros t d p H. destruct (process_parameters _ _ _ H) as (_ & _ & _ & G).
  destruct (from_constants_ok _ _ G) as (_ & _ & _ & ->). cbn [amin]. clear H G.
  unfold minimum_area, piece_parts. cbn [shape_family dimensions]. unfold el_sections.
  cbn [doubled_areas areas map snd].
  split; (eapply Rle_trans; [apply minimum_le; cbn [In]|apply Req_le]).
  - right. left. reflexivity.
  - field.
  - right. right. left. reflexivity.
  - field.
Qed.

(** RM: the legs span the angle whose cosine is G over E, in the area of the outer leg. *)
Theorem C119_rm_leg : forall t d p beta, 0 <= beta <= PI / 2 -> cos beta = dim d "G" / dim d "E" ->
  process IEC_60205 (mkshape FRM t d) = Parameters p ->
  amin p <= 1 / 2 * dim d "J" ^ 2 * (1 + tan (beta - PI / 4)) - beta / 2 * dim d "E" ^ 2
            - 1 / 2 * (sqrt 2 * dim d "J" - dim d "A") ^ 2.
Proof.
  intros t d p beta B C H.
  assert (E : rm_beta d = beta).
  { unfold rm_beta. rewrite <- C, <- sin_shift. rewrite asin_sin by lra. lra. }
  destruct (process_parameters _ _ _ H) as (_ & _ & _ & G).
  destruct (from_constants_ok _ _ G) as (_ & _ & _ & ->). cbn [amin]. clear H G.
  unfold minimum_area, piece_parts. cbn [shape_family dimensions]. unfold rm_parts. rewrite E.
  cbn [areas]. apply minimum_le. left. reflexivity.
Qed.
Example C119_rm_witness : exists (d : dims) beta, 0 <= beta <= PI / 2 /\ cos beta = dim d "G" / dim d "E" /\ dim d "E" = 20.
Proof.
  exists (table [("G", 10); ("E", 20)]), (PI / 3). pose proof PI_RGT_0.
  split; [lra|]. rewrite cos_PI3. split; [|reflexivity].
  replace (dim (table [("G", 10); ("E", 20)]) "G") with 10 by reflexivity.
  replace (dim (table [("G", 10); ("E", 20)]) "E") with 20 by reflexivity. lra.
Qed.

Print Assumptions C119_etd_areas.
Print Assumptions C119_plate_areas.
Print Assumptions C121_pm_default_opening.
Print Assumptions C119_ur_uniform.
Print Assumptions C119_el_yoke.
Print Assumptions C119_rm_leg.
