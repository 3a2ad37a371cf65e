(** * Core losses of a drum in a magnetic shell (C134) *)
From Coq Require Import Reals List Lra Lia ZArith String.
From Verif Require Import Base SizingModel CoreLossModel CoreLossProofs CoreLossShapeProofs CoreLossScaleProperties
  CoreLossShapeProperties CoreLossAgreeProperties CoreLossChoiceModel CoreLossChoiceProperties.
Import ListNotations.
Local Open Scope R_scope.

(** ** Vocabulary *)

(** The excitation of a section of some area carries the flux of the whole. *)
Definition same_flux (part : excitation) (part_area : R) (whole : excitation) (whole_area : R) : Prop :=
  frequency part = frequency whole /\
  peak part * part_area = peak whole * whole_area /\
  offset part * part_area = offset whole * whole_area /\
  peak_to_peak part * part_area = peak_to_peak whole * whole_area.

(** Area, length and volume of a path from its core constants (IEC 60205). *)
Definition area (c1 c2 : R) : R := c1 / c2.
Definition path (c1 c2 : R) : R := c1 ^ 2 / c2.
Definition volume (c1 c2 : R) : R := path c1 c2 * area c1 c2.

(** ** C134 *)

Lemma excitation_for_flux : forall e s w, s <> 0 -> same_flux (excitation_for (w / s) e) s e w.
Proof.
  intros e s w S. unfold same_flux, excitation_for. cbn [frequency peak offset peak_to_peak].
  split; [reflexivity|]. split; [field; exact S|]. split; [|field; exact S].
  destruct (Req_EM_T (offset e) 0) as [Z|Z]; [rewrite Z; ring|field; exact S].
Qed.

Lemma area_pos : forall a b, 0 < a -> 0 < b -> 0 < a / b.
Proof. intros a b A B. apply Rmult_lt_0_compat; [exact A|apply Rinv_0_lt_compat; exact B]. Qed.

Section Drum.
Variable points : nat.
Variable spline : R -> R.
Variable roshen : core -> excitation -> R -> outcome (figure * figure).
Variable ring : material -> core.
Variable loss_factor : core -> excitation -> R -> outcome figure.
Variable loss_factor_unit : material -> excitation -> R -> outcome figure.
Variable permeability : material -> R -> R -> figure.
Variable biased : material -> bool.

Let calculate := calculate_losses points spline roshen ring loss_factor loss_factor_unit permeability biased.
Let density := volumetric_density points spline roshen ring loss_factor_unit permeability biased.

(** Each material is counted over its own volume with its own share of the same
    flux; the density reported times the volume of both is the total. *)
Theorem C134_sections : forall database models c e t o c1 c2 s1 s2,
  0 < c1 -> 0 < c2 -> 0 < s1 -> 0 < s2 -> split c = Some (c1, c2, s1, s2) ->
  calculate database models c e t = Ok o ->
  exists e1 drum, same_flux e1 (area c1 c2) e (area (c1 + s1) (c2 + s2)) /\
    density database models (made_of c) e1 t = Ok drum /\
    match shell c with
    | None => core_losses o = fmul drum (Some (volume c1 c2))
    | Some name => exists x, find_material database name = Ok x /\
        (volumetric x = [] -> core_losses o = fmul drum (Some (volume c1 c2))) /\
        (volumetric x <> [] -> exists e2 v, same_flux e2 (area s1 s2) e (area (c1 + s1) (c2 + s2)) /\
           density database models x e2 t = Ok v /\
           core_losses o = fadd (fmul drum (Some (volume c1 c2))) (fmul v (Some (volume s1 s2))))
    end /\
    (forall w, core_losses o = Some w ->
       exists v, volumetric_losses o = Some (Some v) /\ v * (volume c1 c2 + volume s1 s2) = w).
Proof.
  intros database models c e t o c1 c2 s1 s2 C1 C2 S1 S2 S H.
  pose proof (area_pos c1 c2 C1 C2) as A1. pose proof (area_pos s1 s2 S1 S2) as A2.
  assert (V1 : c1 ^ 3 / c2 ^ 2 = volume c1 c2) by (unfold volume, path, area; field; lra).
  assert (V2 : s1 ^ 3 / s2 ^ 2 = volume s1 s2) by (unfold volume, path, area; field; lra).
  assert (VP : 0 < volume c1 c2 + volume s1 s2).
  { unfold volume, path, area. apply Rplus_lt_0_compat; apply Rmult_lt_0_compat; try assumption;
      apply area_pos; try assumption; apply pow_lt; assumption. }
  unfold calculate, calculate_losses in H. rewrite S in H. unfold semishielded in H. cbv zeta in H.
  fold density in H. rewrite V1, V2 in H.
  set (e1 := excitation_for ((c1 + s1) / (c2 + s2) / (c1 / c2)) e) in *.
  set (e2 := excitation_for ((c1 + s1) / (c2 + s2) / (s1 / s2)) e) in *.
  destruct (density database models (made_of c) e1 t) as [drum| | |] eqn:D; try discriminate. cbn [bind] in H.
  exists e1, drum. split; [apply excitation_for_flux; unfold area; lra|]. split; [exact D|].
  assert (T : forall total name, o = {| core_losses := total;
      volumetric_losses := Some (fdiv total (Some (volume c1 c2 + volume s1 s2)));
      mass_losses := None; hysteresis_losses := None; eddy_losses := None; method_used := name |} ->
    forall w, core_losses o = Some w ->
    exists v, volumetric_losses o = Some (Some v) /\ v * (volume c1 c2 + volume s1 s2) = w).
  { intros total name -> w W. cbn [core_losses volumetric_losses] in *. subst total. unfold fdiv.
    destruct (Req_EM_T _ 0) as [Z|_]; [lra|]. eexists. split; [reflexivity|]. field. lra. }
  destruct (shell c) as [name|].
  - destruct (find_material database name) as [x| | |] eqn:F; try discriminate. cbn [bind] in H.
    destruct (volumetric x) as [|y r] eqn:V.
    + injection H as H. symmetry in H. split; [|exact (T _ _ H)].
      exists x. split; [reflexivity|]. rewrite V. split; [intros _; rewrite H; reflexivity|intros W; contradiction].
    + destruct (density database models x e2 t) as [v| | |] eqn:DV; try discriminate. cbn [bind] in H.
      injection H as H. symmetry in H. split; [|exact (T _ _ H)].
      exists x. split; [reflexivity|]. rewrite V. split; [discriminate|]. intros _. exists e2, v.
      split; [apply excitation_for_flux; unfold area; lra|]. split; [exact DV|]. rewrite H. reflexivity.
  - injection H as H. symmetry in H. split; [rewrite H; reflexivity|exact (T _ _ H)].
Qed.

(** The result says whether the shell was counted. *)
Theorem C134_reported : forall database models c e t o s, split c = Some s ->
  calculate database models c e t = Ok o ->
  (method_used o = "SemiShieldedPerMaterialSplit"%string <->
   exists name x, shell c = Some name /\ find_material database name = Ok x /\ volumetric x <> []) /\
  (method_used o <> "SemiShieldedPerMaterialSplit"%string ->
   method_used o = "SemiShieldedPerMaterialSplit(shellLossesAssumedZero)"%string).
Proof.
  intros database models c e t o [[[c1 c2] s1] s2] S H. unfold calculate, calculate_losses in H. rewrite S in H.
  unfold semishielded in H. cbv zeta in H. fold density in H.
  destruct (density database models (made_of c) _ t) as [drum| | |]; try discriminate. cbn [bind] in H.
  destruct (shell c) as [name|].
  - destruct (find_material database name) as [x| | |] eqn:F; try discriminate. cbn [bind] in H.
    destruct (volumetric x) as [|y r] eqn:V.
    + apply ok_inj in H. subst o. cbn [method_used]. split; [|intros _; reflexivity]. split; [discriminate|].
      intros (n & x' & E & F' & V'). injection E as <-. rewrite F in F'. injection F' as <-. contradiction.
    + destruct (density database models x _ t) as [v| | |]; try discriminate. cbn [bind] in H.
      apply ok_inj in H. subst o. cbn [method_used]. split; [|intros N; contradiction]. split; [|reflexivity].
      intros _. exists name, x. rewrite V. split; [reflexivity|]. split; [exact F|discriminate].
  - apply ok_inj in H. subst o. cbn [method_used]. split; [|intros _; reflexivity]. split; [discriminate|].
    intros (n & x' & E & _). discriminate.
Qed.

(** The same material all along a path of one area: the losses are the ones of a
    core of that material and the whole volume. *)
Theorem C134_one_material : forall database models c e t o c1 c2 s1 s2 v,
  0 < c1 -> 0 < c2 -> 0 < s1 -> 0 < s2 -> split c = Some (c1, c2, s1, s2) ->
  area c1 c2 = area s1 s2 ->
  shell c = Some (material_name (made_of c)) -> find_material database (material_name (made_of c)) = Ok (made_of c) ->
  volumetric (made_of c) <> [] ->
  density database models (made_of c) e t = Ok v -> calculate database models c e t = Ok o ->
  core_losses o = fmul v (Some (volume (c1 + s1) (c2 + s2))) /\ volumetric_losses o = Some v.
Proof.
  intros database models c e t o c1 c2 s1 s2 v C1 C2 S1 S2 S A SH F V D H.
  pose proof (area_pos c1 c2 C1 C2) as A1. pose proof (area_pos s1 s2 S1 S2) as A2. unfold area in A.
  assert (W : (c1 + s1) / (c2 + s2) = c1 / c2).
  { apply (Rmult_eq_reg_r (c2 + s2)); [|lra].
    replace ((c1 + s1) / (c2 + s2) * (c2 + s2)) with (c1 + s1) by (field; lra).
    rewrite Rmult_plus_distr_l. rewrite A at 2. field. lra. }
  assert (E1 : excitation_for (c1 / c2 / (c1 / c2)) e = e).
  { unfold excitation_for. replace (c1 / c2 / (c1 / c2)) with 1 by (field; lra).
    rewrite !Rmult_1_r. destruct e, (Req_EM_T _ 0); reflexivity. }
  unfold calculate, calculate_losses in H. rewrite S in H. unfold semishielded in H. cbv zeta in H.
  fold density in H. rewrite SH, F, W in H. rewrite <- A in H. rewrite E1, D in H. cbn [bind] in H.
  destruct (volumetric (made_of c)) eqn:VV; [contradiction|]. rewrite D in H. cbn [bind] in H.
  apply ok_inj in H. subst o. cbn [core_losses volumetric_losses].
  assert (VS : c1 ^ 3 / c2 ^ 2 + s1 ^ 3 / s2 ^ 2 = volume (c1 + s1) (c2 + s2)).
  { unfold volume, path, area.
    replace ((c1 + s1) ^ 2 / (c2 + s2)) with ((c1 + s1) / (c2 + s2) * (c1 + s1)) by (field; lra).
    rewrite W. replace (c1 ^ 3 / c2 ^ 2) with (c1 / c2 * (c1 / c2) * c1) by (field; lra).
    replace (s1 ^ 3 / s2 ^ 2) with (s1 / s2 * (s1 / s2) * s1) by (field; lra). rewrite <- A. ring. }
  assert (VP : 0 < volume (c1 + s1) (c2 + s2)).
  { unfold volume, path, area. apply Rmult_lt_0_compat; apply area_pos; try lra; try (apply pow_lt; lra). }
  rewrite VS. split.
  - rewrite <- VS. destruct v; simpl; [f_equal; ring|reflexivity].
  - f_equal. unfold fdiv. destruct v as [u|]; simpl; [|reflexivity].
    destruct (Req_EM_T _ 0) as [Z|_]; [lra|]. f_equal. rewrite <- Rmult_plus_distr_l.
    transitivity (u * volume (c1 + s1) (c2 + s2) / volume (c1 + s1) (c2 + s2)); [|field; lra].
    f_equal. f_equal. rewrite <- VS. simpl. reflexivity.
Qed.
End Drum.

(** In a section of [r] times less area the flux density is [r] times larger, so
    that the losses follow the law of the material: with the models of peak. *)
Definition peak_model (m : model) : Prop := m = Steinmetz \/ m = Proprietary.

Theorem C134_peak_models : forall points spline roshen ring unit m x e t r,
  peak_model m -> harmonics e = None ->
  volumetric_by points spline roshen ring unit m x (excitation_for r e) t =
  volumetric_by points spline roshen ring unit m x (stronger r e) t.
Proof.
  intros points spline roshen ring unit m x e t r M H.
  assert (P : peak (excitation_for r e) = peak (stronger r e)) by (simpl; ring).
  assert (O : offset (excitation_for r e) = offset (stronger r e)).
  { simpl. destruct (Req_EM_T (offset e) 0) as [Z|Z]; [rewrite Z; ring|ring]. }
  assert (A : forall f, peak_at (excitation_for r e) f = peak_at (stronger r e) f).
  { intros f. unfold peak_at, harmonic_at. cbn [harmonics excitation_for stronger]. rewrite H. cbn [option_map].
    exact P. }
  assert (S : switching_frequency (excitation_for r e) = switching_frequency (stronger r e)) by reflexivity.
  destruct M as [-> | ->]; cbn [volumetric_by].
  - unfold steinmetz_losses. rewrite S. destruct (switching_frequency (stronger r e)) as [f| | |]; try reflexivity.
    cbn [bind]. rewrite A, P, O. reflexivity.
  - unfold proprietary_losses. rewrite S. destruct (switching_frequency (stronger r e)) as [f| | |]; try reflexivity.
    cbn [bind]. rewrite A, P, O. reflexivity.
Qed.

(** The waveform is left as it was, and with it the slopes iGSE integrates: a
    section of half the area counts fewer losses than its flux density has. *)
Definition ferrite_material : material :=
  {| material_name := "F";
     volumetric := [("default"%string, [Data {| method := KSteinmetz; ranges_ := Some [ferrite]; a_ := None; b_ := None;
                                               c_ := None; d_ := None; factors := None |}])];
     massic := None |}.

Theorem C134_waveform_refuted : forall spline roshen ring unit, exists v w,
  volumetric_by 2 spline roshen ring unit Igse ferrite_material (excitation_for 2 triangle) 25 = Ok (Some v) /\
  volumetric_by 2 spline roshen ring unit Igse ferrite_material (stronger 2 triangle) 25 = Ok (Some w) /\ 0 < v < w.
Proof.
  intros spline roshen ring unit. destruct C127_witness as (v & _ & EV & V & _ & _ & EW & _).
  exists (2 * v), (Rpower 2 (5 / 2) * v).
  assert (R : ranges_of ferrite_material = Ok [ferrite]) by reflexivity.
  assert (SE : switching_frequency (excitation_for 2 triangle) = Ok 1000) by exact triangle_switching.
  assert (SS : switching_frequency (stronger 2 triangle) = Ok 1000) by exact triangle_switching.
  cbn [volumetric_by]. rewrite SE, SS, R. cbn [bind]. split; [|split; [exact EW|]].
  - unfold igse_losses in *. rewrite triangle_switching in EV. rewrite SE. cbn [bind] in *.
    rewrite ferrite_datum in * by lra. cbn [bind] in *.
    change (samples (excitation_for 2 triangle)) with (samples triangle).
    change (igse_points (excitation_for 2 triangle) 1000) with (igse_points triangle 1000).
    destruct (integrated (samples triangle) (igse_points triangle 1000)) as [l| | |]; try discriminate.
    cbn [bind] in *. apply ok_inj in EV. f_equal.
    assert (PP : peak_to_peak_at (excitation_for 2 triangle) 1000 = 2 * peak_to_peak_at triangle 1000)
      by (change (2 * 2 = 2 * 2); reflexivity).
    rewrite PP, cpow_scale by lra. change (beta_ ferrite - alpha_ ferrite) with (5 / 2 - 3 / 2) in *.
    assert (P1 : Rpower 2 (5 / 2 - 3 / 2) = 2).
    { replace (5 / 2 - 3 / 2) with 1 by field. apply Rpower_1. lra. }
    rewrite P1.
    destruct (ki 2 ferrite), (cpow (peak_to_peak_at triangle 1000) (5 / 2 - 3 / 2)),
      (slope_integral (alpha_ ferrite) l); try discriminate.
    unfold with_temperature, fmul, fmap2 in *. injection EV as <-. f_equal. ring.
  - split; [lra|]. apply Rmult_lt_compat_r; [exact V|].
    assert (E : Rpower 2 1 < Rpower 2 (5 / 2)) by (apply Rpower_lt; lra).
    rewrite Rpower_1 in E by lra. exact E.
Qed.

(** A vertical edge makes the result not a number, and here it is returned. *)
Definition vertical_edge : excitation :=
  {| frequency := 1000; current_points := 3; current_harmonics := None;
     peak := 1; offset := 0; peak_to_peak := 2; harmonics := None;
     samples := [(0, -(1)); (0, 1); (1 / 1000, -(1))] |}.
Definition ferrite_drum : core :=
  {| split := Some (1, 1, 1, 1); made_of := ferrite_material; effective_volume := 1; weight := 1; shell := None |}.

Theorem C134_not_finite_refuted : forall spline roshen ring factor unit permeability,
  exists o, calculate_losses 2 spline roshen ring factor unit permeability (fun _ => false)
    [ferrite_material] (preference Igse) ferrite_drum vertical_edge 25 = Ok o /\ core_losses o = None.
Proof.
  intros spline roshen ring factor unit permeability.
  assert (C : chosen_model [ferrite_material] (preference Igse) "F" = Ok Igse).
  { apply (C132_preferred [ferrite_material] ferrite_material Igse); [apply known_alone; discriminate|].
    eexists _, _, _. simpl. split; [left; reflexivity|]. split; [left; reflexivity|reflexivity]. }
  set (e := excitation_for ((1 + 1) / (1 + 1) / (1 / 1)) vertical_edge).
  assert (S : switching_frequency e = Ok 1000).
  { unfold switching_frequency. simpl. destruct (Rlt_dec 1000 400); [lra|reflexivity]. }
  assert (SP : span (samples e) = 1 / 1000) by (unfold span; simpl; field).
  assert (I : igse_losses 2 None [ferrite] e 25 = Ok None).
  { destruct (igse_losses 2 None [ferrite] e 25) as [v| | |] eqn:E.
    - f_equal. apply (C128_vertical_edge_refuted (igse_losses 2) None [ferrite] e 25 [] 0 (-(1)) 1 [(1 / 1000, -(1))] v).
      + constructor.
      + exists 1000. split; [exact S|]. split; [simpl; lra|]. rewrite SP. lra.
      + reflexivity.
      + exact E.
    - exfalso. revert E. unfold igse_losses. rewrite S. cbn [bind]. rewrite ferrite_datum by lra. cbn [bind].
      rewrite igse_points_whole by (try rewrite SP; simpl; lra). rewrite integrated_whole by discriminate. discriminate.
    - exfalso. revert E. unfold igse_losses. rewrite S. cbn [bind]. rewrite ferrite_datum by lra. cbn [bind].
      rewrite igse_points_whole by (try rewrite SP; simpl; lra). rewrite integrated_whole by discriminate. discriminate.
    - exfalso. revert E. unfold igse_losses. rewrite S. cbn [bind]. rewrite ferrite_datum by lra. cbn [bind].
      rewrite igse_points_whole by (try rewrite SP; simpl; lra). rewrite integrated_whole by discriminate. discriminate. }
  eexists. split.
  - unfold calculate_losses. cbn [split ferrite_drum]. unfold semishielded, volumetric_density. cbv zeta.
    cbn [made_of ferrite_drum shell]. change (material_name ferrite_material) with "F"%string. rewrite C.
    cbn [bind volumetric_by]. fold e. rewrite S. change (ranges_of ferrite_material) with (Ok [ferrite]).
    cbn [bind]. rewrite I. cbn [bind fmul fmap2]. reflexivity.
  - reflexivity.
Qed.

(** A drum of ferrite whose shell is the same ferrite, by Steinmetz. *)
Example C134_witness : forall spline roshen ring factor unit permeability,
  let c := {| split := Some (4, 1, 8, 2); made_of := ferrite_material; effective_volume := 1; weight := 1;
              shell := Some "F"%string |} in
  area 4 1 = area 8 2 /\
  exists o w, calculate_losses 2 spline roshen ring factor unit permeability (fun _ => false)
    [ferrite_material] (preference Steinmetz) c triangle 25 = Ok o /\ core_losses o = Some w /\ 0 < w.
Proof.
  intros spline roshen ring factor unit permeability c. split; [unfold area; field|].
  assert (C : chosen_model [ferrite_material] (preference Steinmetz) "F" = Ok Steinmetz).
  { apply (C132_preferred [ferrite_material] ferrite_material Steinmetz); [apply known_alone; discriminate|].
    eexists _, _, _. simpl. split; [left; reflexivity|]. split; [left; reflexivity|reflexivity]. }
  destruct C127_witness as (_ & w & _ & _ & EW & W & _).
  assert (D : volumetric_density 2 spline roshen ring unit permeability (fun _ => false) [ferrite_material]
                (preference Steinmetz) ferrite_material triangle 25 = Ok (Some w)).
  { unfold volumetric_density. change (material_name ferrite_material) with "F"%string. rewrite C.
    cbn [bind volumetric_by]. rewrite triangle_switching. change (ranges_of ferrite_material) with (Ok [ferrite]).
    cbn [bind]. rewrite EW. cbn [bind]. unfold bias_factor. destruct (Rlt_dec _ _); simpl; do 2 f_equal; ring. }
  destruct (calculate_losses 2 spline roshen ring factor unit permeability (fun _ => false)
              [ferrite_material] (preference Steinmetz) c triangle 25) as [o| | |] eqn:H.
  - destruct (C134_one_material 2 spline roshen ring factor unit permeability (fun _ => false) [ferrite_material]
      (preference Steinmetz) c triangle 25 o 4 1 8 2 (Some w)) as [E _]; try reflexivity; try lra; try assumption.
    + unfold area. field.
    + discriminate.
    + exists o, (w * volume (4 + 8) (1 + 2)). split; [reflexivity|]. split; [exact E|].
      unfold volume, path, area. apply Rmult_lt_0_compat; [exact W|]. lra.
  - exfalso. revert H. unfold calculate_losses, semishielded. cbn [split c shell made_of]. cbv zeta.
    assert (E1 : excitation_for ((4 + 8) / (1 + 2) / (4 / 1)) triangle = triangle).
    { unfold excitation_for. replace ((4 + 8) / (1 + 2) / (4 / 1)) with 1 by field. cbn. rewrite !Rmult_1_r.
      destruct (Req_EM_T 0 0); reflexivity. }
    assert (E2 : excitation_for ((4 + 8) / (1 + 2) / (8 / 2)) triangle = triangle).
    { replace (8 / 2) with (4 / 1) by field. exact E1. }
    rewrite E1, E2, D. cbn [bind]. change (find_material [ferrite_material] "F") with (Ok ferrite_material).
    cbn [bind volumetric ferrite_material]. fold ferrite_material. rewrite D. discriminate.
  - exfalso. revert H. unfold calculate_losses, semishielded. cbn [split c shell made_of]. cbv zeta.
    assert (E1 : excitation_for ((4 + 8) / (1 + 2) / (4 / 1)) triangle = triangle).
    { unfold excitation_for. replace ((4 + 8) / (1 + 2) / (4 / 1)) with 1 by field. cbn. rewrite !Rmult_1_r.
      destruct (Req_EM_T 0 0); reflexivity. }
    assert (E2 : excitation_for ((4 + 8) / (1 + 2) / (8 / 2)) triangle = triangle).
    { replace (8 / 2) with (4 / 1) by field. exact E1. }
    rewrite E1, E2, D. cbn [bind]. change (find_material [ferrite_material] "F") with (Ok ferrite_material).
    cbn [bind volumetric ferrite_material]. fold ferrite_material. rewrite D. discriminate.
  - exfalso. revert H. unfold calculate_losses, semishielded. cbn [split c shell made_of]. cbv zeta.
    assert (E1 : excitation_for ((4 + 8) / (1 + 2) / (4 / 1)) triangle = triangle).
    { unfold excitation_for. replace ((4 + 8) / (1 + 2) / (4 / 1)) with 1 by field. cbn. rewrite !Rmult_1_r.
      destruct (Req_EM_T 0 0); reflexivity. }
    assert (E2 : excitation_for ((4 + 8) / (1 + 2) / (8 / 2)) triangle = triangle).
    { replace (8 / 2) with (4 / 1) by field. exact E1. }
    rewrite E1, E2, D. cbn [bind]. change (find_material [ferrite_material] "F") with (Ok ferrite_material).
    cbn [bind volumetric ferrite_material]. fold ferrite_material. rewrite D. discriminate.
Qed.

Print Assumptions C134_sections.
Print Assumptions C134_reported.
Print Assumptions C134_one_material.
Print Assumptions C134_peak_models.
Print Assumptions C134_waveform_refuted.
Print Assumptions C134_not_finite_refuted.
