(** * Core losses under a direct bias (C133) *)
From Coq Require Import Reals List Lra Lia ZArith String.
From Verif Require Import Base SizingModel CoreLossModel CoreLossProofs CoreLossScaleProperties
  CoreLossChoiceModel CoreLossChoiceProperties.
Import ListNotations.
Local Open Scope outcome_scope.
Local Open Scope R_scope.

(** ** C133 *)

Lemma vacuum_positive : 0 < vacuum_permeability.
Proof. unfold vacuum_permeability. lra. Qed.

Section Bias.
Variable points : nat.
Variable spline : R -> R.
Variable roshen : core -> excitation -> R -> outcome (figure * figure).
Variable ring : material -> core.
Variable loss_factor : core -> excitation -> R -> outcome figure.
Variable loss_factor_unit : material -> excitation -> R -> outcome figure.
Variable permeability : material -> R -> R -> figure.
Variable biased : material -> bool.

Let factor := bias_factor permeability biased.
Let calculate := calculate_losses points spline roshen ring loss_factor loss_factor_unit permeability biased.
Let by_model := losses_by points spline roshen ring loss_factor loss_factor_unit.
Let density := volumetric_density points spline roshen ring loss_factor_unit permeability biased.

(** The correction never lowers the losses, and raises them ten times at most. *)
Theorem C133_factor_range : forall x e t, 1 <= factor x e t <= 10.
Proof.
  intros x e t. unfold factor, bias_factor.
  destruct (Rlt_dec (Rabs (offset e)) (1 / 1000000)); [lra|]. destruct (biased x); [|lra].
  destruct (permeability x t 0) as [zero|]; [|lra]. destruct (Rle_dec zero 0); [lra|].
  destruct (permeability x t _) as [b|]; [|lra]. destruct (Rle_dec b 0); [lra|].
  destruct (Rlt_dec (zero / b) 1); destruct (Rlt_dec 10 _); lra.
Qed.

(** It does not act without bias nor on a material without data, and it does not
    see the sign of the bias nor anything else of the excitation. *)
Theorem C133_no_bias : forall x e t, Rabs (offset e) < 1 / 1000000 -> factor x e t = 1.
Proof. intros x e t H. unfold factor, bias_factor. destruct (Rlt_dec _ _); [reflexivity|lra]. Qed.

Theorem C133_no_data : forall x e t, biased x = false -> factor x e t = 1.
Proof. intros x e t H. unfold factor, bias_factor. rewrite H. destruct (Rlt_dec _ _); reflexivity. Qed.

Theorem C133_sign : forall x e e' t, offset e' = offset e \/ offset e' = - offset e -> factor x e' t = factor x e t.
Proof.
  intros x e e' t H. unfold factor, bias_factor.
  assert (A : Rabs (offset e') = Rabs (offset e)) by (destruct H as [-> | ->]; [reflexivity|apply Rabs_Ropp]).
  rewrite A. reflexivity.
Qed.

(** The correction is the ratio of the permeabilities, within the limits. *)
Theorem C133_ratio : forall x e t zero bias, biased x = true -> 1 / 1000000 <= Rabs (offset e) ->
  permeability x t 0 = Some zero -> 0 < zero ->
  permeability x t (Rabs (offset e) / (vacuum_permeability * zero)) = Some bias ->
  0 < bias -> bias <= zero <= 10 * bias -> factor x e t * bias = zero.
Proof.
  intros x e t zero bias B O Z ZP P BP [L U]. unfold factor, bias_factor. rewrite B, Z, P.
  destruct (Rlt_dec (Rabs (offset e)) (1 / 1000000)); [lra|].
  destruct (Rle_dec zero 0); [lra|]. destruct (Rle_dec bias 0); [lra|].
  assert (Q1 : 1 <= zero / bias) by (apply Rmult_le_reg_r with bias; [lra|]; unfold Rdiv; rewrite Rmult_assoc, Rinv_l; lra).
  assert (Q2 : zero / bias <= 10) by (apply Rmult_le_reg_r with bias; [lra|]; unfold Rdiv; rewrite Rmult_assoc, Rinv_l; lra).
  destruct (Rlt_dec (zero / bias) 1); [lra|]. destruct (Rlt_dec 10 (zero / bias)); [lra|]. field. lra.
Qed.

(** More bias, more losses, when the permeability falls with the field. *)
Theorem C133_monotone : forall x e e' t,
  (forall h h', 0 <= h <= h' ->
     exists p q, permeability x t h = Some p /\ permeability x t h' = Some q /\ 0 < q <= p) ->
  Rabs (offset e) <= Rabs (offset e') -> factor x e t <= factor x e' t.
Proof.
  intros x e e' t P H. pose proof (C133_factor_range x e' t) as R'. revert R'. unfold factor, bias_factor.
  destruct (Rlt_dec (Rabs (offset e)) (1 / 1000000)) as [L|L]; [lra|].
  destruct (Rlt_dec (Rabs (offset e')) (1 / 1000000)) as [L'|L']; [lra|].
  destruct (biased x); [|lra].
  destruct (P 0 0) as (zero & z2 & Z & Z2 & ZZ); [lra|].
  rewrite Z. destruct (Rle_dec zero 0); [lra|]. pose proof vacuum_positive as V.
  assert (VZ : 0 < vacuum_permeability * zero) by (apply Rmult_lt_0_compat; lra).
  assert (I : 0 < / (vacuum_permeability * zero)) by (apply Rinv_0_lt_compat; exact VZ).
  destruct (P (Rabs (offset e) / (vacuum_permeability * zero)) (Rabs (offset e') / (vacuum_permeability * zero)))
    as (p & q & E1 & E2 & Q & PQ).
  { unfold Rdiv. split; [apply Rmult_le_pos; lra|apply Rmult_le_compat_r; lra]. }
  rewrite E1, E2. destruct (Rle_dec p 0); [lra|]. destruct (Rle_dec q 0); [lra|].
  assert (ZZZ : zero / p <= zero / q).
  { unfold Rdiv. apply Rmult_le_compat_l; [lra|]. apply Rinv_le_contravar; lra. }
  destruct (Rlt_dec (zero / p) 1); destruct (Rlt_dec (zero / q) 1);
    repeat match goal with |- context [Rlt_dec 10 ?z] => destruct (Rlt_dec 10 z) end; lra.
Qed.

(** Total, volumetric and mass losses are those of the model times the
    correction, and the total is a number. *)
Theorem C133_applied : forall database models c e t o, split c = None ->
  calculate database models c e t = Ok o ->
  exists m o0, chosen_model database models (material_name (made_of c)) = Ok m /\ by_model m c e t = Ok o0 /\
    core_losses o = fmul (core_losses o0) (Some (factor (made_of c) e t)) /\
    volumetric_losses o = option_map (fun v => fmul v (Some (factor (made_of c) e t))) (volumetric_losses o0) /\
    mass_losses o = option_map (fun v => fmul v (Some (factor (made_of c) e t))) (mass_losses o0) /\
    method_used o = method_used o0 /\ exists w, core_losses o = Some w.
Proof.
  intros database models c e t o S H. unfold calculate, calculate_losses in H. rewrite S in H.
  destruct (chosen_model database models (material_name (made_of c))) as [m| | |] eqn:C; try discriminate.
  cbn [bind] in H. fold by_model in H. destruct (by_model m c e t) as [o0| | |] eqn:L; try discriminate.
  cbn [bind] in H. fold factor in H. exists m, o0. split; [reflexivity|]. split; [exact L|].
  set (k := factor (made_of c) e t) in *.
  assert (U : forall v : figure, fmul v (Some 1) = v) by (intros [v|]; simpl; [f_equal; ring|reflexivity]).
  assert (E : exists o1, o = o1 /\ (if Rlt_dec 1 k then scaled k o0 else o0) = o1).
  { exists (if Rlt_dec 1 k then scaled k o0 else o0). split; [|reflexivity].
    cbv zeta in H. destruct (core_losses (if Rlt_dec 1 k then scaled k o0 else o0)); [|discriminate].
    injection H as H. symmetry. exact H. }
  destruct E as (o1 & -> & E). rewrite E in H.
  assert (F : exists w, core_losses o1 = Some w).
  { destruct (core_losses o1) as [w|]; [exists w; reflexivity|discriminate]. }
  destruct (Rlt_dec 1 k) as [K|K].
  - subst o1. unfold scaled in *. cbn [core_losses volumetric_losses mass_losses method_used] in *.
    repeat split; try reflexivity. exact F.
  - assert (k = 1) as ->.
    { pose proof (C133_factor_range (made_of c) e t) as G. fold k in G. lra. }
    subst o1. rewrite U. repeat split; try reflexivity; try exact F.
    + destruct (volumetric_losses o0); simpl; [rewrite U|]; reflexivity.
    + destruct (mass_losses o0); simpl; [rewrite U|]; reflexivity.
Qed.

(** The losses of a biased core are not below the unbiased ones of its model. *)
Theorem C133_never_less : forall database models c e t o m o0 w0, split c = None ->
  calculate database models c e t = Ok o ->
  chosen_model database models (material_name (made_of c)) = Ok m -> by_model m c e t = Ok o0 ->
  core_losses o0 = Some w0 -> 0 <= w0 ->
  exists w, core_losses o = Some w /\ w0 <= w <= 10 * w0.
Proof.
  intros database models c e t o m o0 w0 S H C L W P.
  destruct (C133_applied _ _ _ _ _ _ S H) as (m' & o' & C' & L' & E & _). rewrite C in C'. injection C' as <-.
  rewrite L in L'. injection L' as <-. rewrite W in E. simpl in E. eexists. split; [exact E|].
  pose proof (C133_factor_range (made_of c) e t) as [K1 K2]. split.
  - rewrite <- (Rmult_1_r w0) at 1. apply Rmult_le_compat_l; lra.
  - rewrite (Rmult_comm 10). apply Rmult_le_compat_l; lra.
Qed.

(** The density asked for a material is the one reported for a core of it, and
    the total is its product with the volume, for all models but Roshen and the
    loss factor. *)
Theorem C133_same_density : forall database models c e t m o v, split c = None ->
  chosen_model database models (material_name (made_of c)) = Ok m -> m <> Roshen -> m <> LossFactor ->
  volumetric (made_of c) <> [] ->
  calculate database models c e t = Ok o -> density database models (made_of c) e t = Ok v ->
  volumetric_losses o = Some v /\ core_losses o = fmul v (Some (effective_volume c)).
Proof.
  intros database models c e t m o v S C NR NL V H D.
  destruct (C133_applied _ _ _ _ _ _ S H) as (m' & o0 & C' & L & E1 & E2 & _). rewrite C in C'. injection C' as <-.
  unfold density, volumetric_density in D. rewrite C in D. cbn [bind] in D. fold factor in D.
  assert (UV : uses_volumetric (made_of c) = Ok true).
  { unfold uses_volumetric. destruct (volumetric (made_of c)); [contradiction|reflexivity]. }
  unfold by_model, losses_by in L. rewrite UV in L. cbn [bind] in L.
  destruct (volumetric_by points spline roshen ring loss_factor_unit m (made_of c) e t) as [u| | |] eqn:B;
    [|destruct m; discriminate..].
  assert (O : o0 = {| core_losses := fmul u (Some (effective_volume c)); volumetric_losses := Some u;
                      mass_losses := None; hysteresis_losses := None; eddy_losses := None;
                      method_used := name_of m |}).
  { destruct m; try contradiction; cbn [bind] in L; injection L as L; symmetry; exact L. }
  assert (D' : v = fmul u (Some (factor (made_of c) e t))).
  { destruct m; try contradiction; cbn [bind] in D; injection D as D; symmetry; exact D. }
  subst o0 v. cbn [core_losses volumetric_losses option_map] in *. rewrite E1, E2. split; [reflexivity|].
  destruct u; simpl; [f_equal; ring|reflexivity].
Qed.
(** Whatever the model, the total is the reported density times the volume of the core,
    or the reported losses per mass times its weight, the correction included. *)
Theorem C132_reported : forall database models c e t o, split c = None -> effective_volume c <> 0 ->
  calculate database models c e t = Ok o ->
  (exists v, volumetric_losses o = Some v /\ mass_losses o = None /\ core_losses o = fmul v (Some (effective_volume c))) \/
  (exists v, mass_losses o = Some v /\ volumetric_losses o = None /\ core_losses o = fmul v (Some (weight c))).
Proof.
  intros database models c e t o S V H.
  destruct (C133_applied _ _ _ _ _ _ S H) as (m & o0 & _ & L & E1 & E2 & E3 & _ & w & W).
  rewrite W in E1. rewrite E2, E3. rewrite W. set (k := factor (made_of c) e t) in *. clearbody k. clear H E2 E3 W.
  assert (P : forall (x : figure) y, Some w = fmul (fmul x (Some y)) (Some k) -> Some w = fmul (fmul x (Some k)) (Some y)).
  { intros [x|] y; simpl; intro K; [rewrite K; f_equal; ring|exact K]. }
  unfold by_model, losses_by in L.
  assert (G : forall x y, (by_volume <- uses_volumetric (made_of c) ;;
      if by_volume : bool then v <- x ;;
        Ok {| core_losses := fmul v (Some (effective_volume c)); volumetric_losses := Some v; mass_losses := None;
              hysteresis_losses := None; eddy_losses := None; method_used := name_of m |}
      else v <- y ;;
        Ok {| core_losses := fmul v (Some (weight c)); volumetric_losses := None; mass_losses := Some v;
              hysteresis_losses := None; eddy_losses := None; method_used := name_of m |}) = Ok o0 ->
      (exists v, option_map (fun v => fmul v (Some k)) (volumetric_losses o0) = Some v /\
          option_map (fun v => fmul v (Some k)) (mass_losses o0) = None /\ Some w = fmul v (Some (effective_volume c))) \/
      (exists v, option_map (fun v => fmul v (Some k)) (mass_losses o0) = Some v /\
          option_map (fun v => fmul v (Some k)) (volumetric_losses o0) = None /\ Some w = fmul v (Some (weight c)))).
  { intros x y Q. destruct (uses_volumetric (made_of c)) as [[|]| | |]; cbn [bind] in Q; try discriminate.
    - destruct x as [v| | |]; cbn [bind] in Q; try discriminate. injection Q as Q. subst o0.
      cbn [core_losses volumetric_losses mass_losses option_map] in *. left. eexists. repeat split. apply P. exact E1.
    - destruct y as [v| | |]; cbn [bind] in Q; try discriminate. injection Q as Q. subst o0.
      cbn [core_losses volumetric_losses mass_losses option_map] in *. right. eexists. repeat split. apply P. exact E1. }
  destruct m; try (eapply G; exact L).
  - destruct (roshen c e t) as [h| | |]; cbn [bind] in L; try discriminate. injection L as L. subst o0.
    cbn [core_losses volumetric_losses mass_losses option_map] in *. left. eexists. repeat split. apply P. exact E1.
  - destruct (loss_factor c e t) as [x| | |]; cbn [bind] in L; try discriminate. injection L as L. subst o0.
    cbn [core_losses volumetric_losses mass_losses option_map] in *. left. eexists. repeat split.
    destruct x as [x|]; [|discriminate]. unfold fdiv. destruct (Req_EM_T (effective_volume c) 0) as [Z|_]; [contradiction|].
    simpl in *. rewrite E1. f_equal. field. exact V.
Qed.
End Bias.

(** ** Roshen *)

(** A material whose permeability halves with any field, with Roshen data. *)
Definition halved (x : material) (t h : R) : figure := if Rle_dec h 0 then Some 2 else Some 1.
Definition roshen_material : material :=
  {| material_name := "R"; volumetric := [("default"%string, [Data (plain KRoshen)])]; massic := None |}.
Definition biased_triangle : excitation :=
  {| frequency := 1000; current_points := 3; current_harmonics := None;
     peak := 2; offset := 1; peak_to_peak := 2; harmonics := None;
     samples := [(0, 0); (1 / 2000, 2); (1 / 1000, 0)] |}.

Lemma roshen_chosen : chosen_model [roshen_material] (preference Igse) "R" = Ok Roshen.
Proof.
  apply (C132_first_offered [roshen_material] (preference Igse) roshen_material Roshen);
    [apply known_alone; discriminate|].
  exists [Igse; Proprietary; LossFactor; Steinmetz], []. split; [reflexivity|]. split.
  - exists "default"%string, [Data (plain KRoshen)], (plain KRoshen). simpl. auto.
  - assert (N : forall k, k <> KRoshen -> ~ declares roshen_material k).
    { intros k K (v & l & d & I & J & M). simpl in I. destruct I as [I|[]]. injection I as <- <-.
      destruct J as [J|[]]. injection J as <-. simpl in M. congruence. }
    assert (W : ~ has_mass_method roshen_material) by (intros (w & v & l & E & _); discriminate).
    simpl. intros y [<-|[<-|[<-|[<-|[]]]]]; simpl.
    + apply N. discriminate.
    + intros [D|[D|[D|[D|D]]]]; [revert D; apply N; discriminate..|exact (W D)].
    + apply N. discriminate.
    + apply N. discriminate.
Qed.

Lemma halved_factor : forall t, bias_factor halved (fun _ => true) roshen_material biased_triangle t = 2.
Proof.
  intros t. unfold bias_factor, halved. cbn [offset biased_triangle]. rewrite Rabs_pos_eq by lra.
  destruct (Rlt_dec 1 (1 / 1000000)); [lra|]. destruct (Rle_dec 0 0); [|lra]. destruct (Rle_dec 2 0); [lra|].
  pose proof vacuum_positive as V.
  assert (H : 0 < 1 / (vacuum_permeability * 2)).
  { unfold Rdiv. rewrite Rmult_1_l. apply Rinv_0_lt_compat. lra. }
  destruct (Rle_dec (1 / (vacuum_permeability * 2)) 0); [lra|].
  destruct (Rle_dec 1 0); [lra|]. destruct (Rlt_dec (2 / 1) 1); [lra|]. destruct (Rlt_dec 10 (2 / 1)); lra.
Qed.

(** With Roshen the correction is in the total but neither in its hysteresis and
    eddy parts nor in the density asked for the material. *)
Theorem C133_roshen_refuted : forall points spline factor unit t,
  let roshen := fun (_ : core) (_ : excitation) (_ : R) => Ok (Some 3, Some 4) in
  (exists o, calculate_losses points spline roshen core_of factor unit halved (fun _ => true)
     [roshen_material] (preference Igse) (core_of roshen_material) biased_triangle t = Ok o /\
     core_losses o = Some 14 /\ volumetric_losses o = Some (Some 14) /\
     hysteresis_losses o = Some (Some 3) /\ eddy_losses o = Some (Some 4)) /\
  volumetric_density points spline roshen core_of unit halved (fun _ => true)
    [roshen_material] (preference Igse) roshen_material biased_triangle t = Ok (Some 7).
Proof.
  intros points spline factor unit t roshen. split.
  - eexists. split.
    + unfold calculate_losses. cbn [split core_of made_of]. change (material_name roshen_material) with "R"%string.
      rewrite roshen_chosen. cbn [bind losses_by roshen fst snd]. rewrite halved_factor.
      destruct (Rlt_dec 1 2); [|lra]. cbn [scaled core_losses fadd fmul fmap2 effective_volume core_of]. reflexivity.
    + unfold scaled. cbn [core_losses volumetric_losses hysteresis_losses eddy_losses option_map fadd fmul fmap2
                     effective_volume core_of].
      repeat split; repeat f_equal; ring.
  - unfold volumetric_density. change (material_name roshen_material) with "R"%string. rewrite roshen_chosen.
    cbn [bind volumetric_by roshen fst snd fadd fmap2]. do 2 f_equal. ring.
Qed.

(** A bias that doubles the losses, and a permeability that falls with the field. *)
Example C133_witness :
  bias_factor halved (fun _ => true) roshen_material biased_triangle 25 = 2 /\
  (forall h h', 0 <= h <= h' -> exists p q,
     Some (1 + / (1 + h)) = Some p /\ Some (1 + / (1 + h')) = Some q /\ 0 < q <= p).
Proof.
  split; [apply halved_factor|]. intros h h' [H H']. exists (1 + / (1 + h)), (1 + / (1 + h')).
  split; [reflexivity|]. split; [reflexivity|].
  assert (0 < / (1 + h')) by (apply Rinv_0_lt_compat; lra).
  assert (/ (1 + h') <= / (1 + h)) by (apply Rinv_le_contravar; lra). lra.
Qed.

Print Assumptions C133_factor_range.
Print Assumptions C133_monotone.
Print Assumptions C133_applied.
Print Assumptions C133_same_density.
Print Assumptions C133_roshen_refuted.
