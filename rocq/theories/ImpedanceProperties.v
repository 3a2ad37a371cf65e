(** C183, C184: the impedance of a magnetic over frequency. *)
From Coq Require Import Reals List Bool String ZArith Lia Lra Permutation.
From Verif Require Import Base ImpedanceModel ImpedanceProofs.
Import ListNotations.
Local Open Scope R_scope.

(** * Specification vocabulary *)
(** A material that never gives energy back: the imaginary parts of its permeability
    and of its permittivity, as tabulated, have the sign of a loss. *)
Definition passive (mt : material) : Prop :=
  forall f, 0 < f ->
    0 <= snd (mt_permeability mt f)
    /\ (forall re im v, mt_permittivity mt = Some (re, im) -> permittivity_at im f = Some v -> 0 <= v).
Definition no_gain (figures : list R) : Prop := Forall (fun x => 0 <= x) figures.
(** Wires and elements without gain. *)
Definition passive_model (m : wideband) : Prop :=
  (forall mt, w_material m = Some mt -> passive mt)
  /\ 0 <= w_scaling m
  /\ (forall t, In t (w_tanks m) -> 0 <= t_inductance t /\ 0 <= t_ratio2 t)
  /\ no_gain (w_dc m)
  /\ (forall l, w_skin m = Some l -> forall dc ac f, In (dc, ac) l -> 0 < f -> 0 <= ac f)
  /\ (forall p, w_proximity m = Some p -> forall i f, 0 < f -> 0 <= p i f).
(** The sizes of a column: its width and depth, or none. *)
Definition column_sizes (l : list R) : Prop := l = [] \/ exists w d, 0 < w /\ 0 < d /\ l = [w; d].
(** [1 / z = 1 / arm + j w c], without a division. *)
Definition in_parallel (z arm : complex) (susceptance : R) : Prop :=
  fst z * (1 - susceptance * snd arm) - snd z * (susceptance * fst arm) = fst arm
  /\ fst z * (susceptance * fst arm) + snd z * (1 - susceptance * snd arm) = snd arm.

Lemma positive_both : forall w d, 0 < w -> 0 < d -> filter positive [w; d] = [w; d].
Proof. intros w d W D. unfold filter, positive. destruct (Rlt_dec 0 w); [|lra]. destruct (Rlt_dec 0 d); [|lra]. reflexivity. Qed.

Section Theorems.
Variable slab : complex -> R -> option complex.

(** * C183: losses *)
Lemma mu0_pos : 0 < mu_0.
Proof. unfold mu_0. pose proof PI_RGT_0. lra. Qed.
Lemma eps0_pos : 0 < eps_0.
Proof. unfold eps_0. lra. Qed.
Lemma alpha_pos : forall f, 0 < f -> 0 < (2 * PI * f) ^ 2 * mu_0 * eps_0.
Proof.
  intros f F. pose proof PI_RGT_0. pose proof mu0_pos. pose proof eps0_pos.
  apply Rmult_lt_0_compat; [apply Rmult_lt_0_compat|]; try assumption. apply pow_lt. apply Rmult_lt_0_compat; lra.
Qed.

(** The attenuation of the core's cross section turns no loss into a gain. *)
Lemma attenuated : forall mt f mu dims factor, 0 < f -> passive mt -> 0 <= snd mu -> column_sizes dims ->
  attenuation slab mt f mu dims = Some factor ->
  (snd (ctimes (fst mu, - snd mu) factor) <= 0) /\ (0 < snd mu -> snd (ctimes (fst mu, - snd mu) factor) < 0).
Proof.
  intros mt f [x y] dims factor F P Y D. cbn [fst snd] in *. unfold attenuation.
  assert (One : snd (ctimes (x, - y) (1, 0)) = - y) by (unfold ctimes; cbn; ring).
  destruct (mt_permittivity mt) as [[re im]|] eqn:Pm; [|intro E; injection E as <-; rewrite One; split; intros; lra].
  destruct D as [->|(w & d & W & Dp & ->)]; [intro E; injection E as <-; rewrite One; split; intros; lra|].
  destruct (permittivity_at re f) as [e|] eqn:Er; [|discriminate]. cbn [obind].
  destruct (permittivity_at im f) as [h|] eqn:Ei; [|discriminate]. cbn [obind].
  destruct (Rle_dec e 0) as [|E0]; [intro E; injection E as <-; rewrite One; split; intros; lra|].
  rewrite (positive_both w d W Dp). cbv zeta. cbn [fst snd]. intro E.
  apply osum_some in E. destruct E as (u & v & E1 & E2 & ->). injection E1 as <-.
  rewrite double_total, osum_zero in E2.
  pose proof (proj2 (P f F) re im h Pm Ei) as H0.
  pose proof (double_bound w d _ x y e h (odds 41) (odds 41) v (alpha_pos f F) Y H0 (odds_nonzero 41) (odds_nonzero 41) E2) as B.
  pose proof odds_weight as Wt.
  set (k := 64 / PI ^ 4 * inverse_squares (odds 41) * inverse_squares (odds 41)) in *.
  rewrite ctimes_plus, One. split; [assert (k * y <= 1 * y) by (apply Rmult_le_compat_r; lra); lra|]. intro Y0. assert (k * y < 1 * y) by (apply Rmult_lt_compat_r; assumption). lra.
Qed.

(** The permeability the impedance is computed from keeps the sign of a loss. *)
Theorem C183_effective_loss : forall m f e,
  0 < f -> (forall mt, w_material m = Some mt -> passive mt) -> 0 <= w_scaling m -> column_sizes (w_dimensions m) ->
  effective_permeability slab m f = Some e ->
  0 <= snd e
  /\ (forall mt, w_material m = Some mt -> 0 < snd (mt_permeability mt f) -> 0 < w_scaling m -> 0 < snd e).
Proof.
  intros m f e F P S D. unfold effective_permeability. destruct (w_material m) as [mt|].
  - cbv zeta. destruct (attenuation slab mt f (mt_permeability mt f) (w_dimensions m)) as [k|] eqn:A; [|discriminate].
    cbn [obind]. intro E. injection E as <-. cbn [fst snd].
    pose proof (attenuated mt f _ _ k F (P mt eq_refl) (proj1 (P mt eq_refl f F)) D A) as (H & H').
    cbn [ctimes fst snd] in H, H'. set (v := fst _ * snd k + _ * fst k) in *. split; [apply Rmult_le_pos; lra|]. intros mt' E Y S'. injection E as <-. specialize (H' Y). apply Rmult_lt_0_compat; lra.
  - intro E. injection E as <-. cbn. split; [lra | intros mt E; discriminate].
Qed.

Lemma resistance_positive : forall m f i, 0 < f -> passive_model m -> 0 <= resistance_at m f i.
Proof.
  intros m f i F (_ & _ & _ & Dc & Sk & Px). unfold resistance_at.
  assert (N : 0 <= nth i (w_dc m) 0).
  { destruct (lt_dec i (List.length (w_dc m))) as [L|L].
    - unfold no_gain in Dc. rewrite Forall_forall in Dc. apply Dc, nth_In, L.
    - rewrite nth_overflow by lia. lra. }
  assert (Fb : 0 <= match w_skin m with
              | Some l => match nth_error l i with
                          | Some (per_metre, at_frequency) =>
                              if Rlt_dec 0 per_metre then nth i (w_dc m) 0 * (at_frequency f / per_metre) else nth i (w_dc m) 0
                          | None => nth i (w_dc m) 0 end
              | None => nth i (w_dc m) 0 end).
  { destruct (w_skin m) as [l|]; [|exact N]. destruct (nth_error l i) as [[dc ac]|] eqn:E; [|exact N].
    destruct (Rlt_dec 0 dc) as [L|]; [|exact N]. apply nth_error_In in E. pose proof (Sk l eq_refl dc ac f E F).
    apply Rmult_le_pos; [exact N|]. apply Rmult_le_pos; [assumption|]. left. apply Rinv_0_lt_compat, L. }
  destruct (w_fast m); [exact Fb|]. destruct (w_proximity m) as [p|]; [apply (Px p eq_refl i f F) | exact Fb].
Qed.
Lemma arm_positive : forall m f mu t, 0 < f -> passive_model m -> In t (w_tanks m) -> 0 <= snd mu ->
  0 <= fst (series_arm m f mu t).
Proof.
  intros m f mu t F P I M. unfold series_arm. cbv zeta. pose proof PI_RGT_0 as Pi.
  pose proof P as (_ & _ & T & _). destruct (T t I) as (L & R2).
  destruct (t_core t); cbn [fst cscale].
  - apply Rmult_le_pos; [|exact M]. apply Rmult_le_pos; [|exact L]. apply Rmult_le_pos; lra.
  - pose proof (resistance_positive m f 0 F P). pose proof (resistance_positive m f (t_secondary t) F P).
    assert (0 <= t_ratio2 t * resistance_at m f (t_secondary t)) by (apply Rmult_le_pos; assumption). lra.
Qed.

(** A magnetic never gives energy: whatever its tanks, the resistance it shows is not
    negative at any frequency. *)
Theorem C183_passive : forall m f z,
  0 < f -> passive_model m -> column_sizes (w_dimensions m) ->
  impedance_from_model slab m f = Some z -> 0 <= fst z.
Proof.
  intros m f z F P D. unfold impedance_from_model.
  destruct (effective_permeability slab m f) as [mu|] eqn:E; [|discriminate]. cbn [obind]. rewrite cascade_total, osum_zero.
  pose proof P as (Pm & Sc & _).
  pose proof (proj1 (C183_effective_loss m f mu F Pm Sc D E)) as M. apply total_re.
  intros x I. apply in_map_iff in I. destruct I as (t & H & I). apply shunted_re in H; [|exact F].
  apply H. apply arm_positive; assumption.
Qed.

(** With a lossy material and resistive windings the figure is finite at every
    frequency, and dissipates. *)
Theorem C183_lossy_finite : forall m f mt,
  0 < f -> passive_model m -> column_sizes (w_dimensions m) -> w_material m = Some mt -> 0 < w_scaling m ->
  0 <= fst (mt_permeability mt f) -> 0 < snd (mt_permeability mt f) ->
  (forall re im, mt_permittivity mt = Some (re, im) ->
     exists e h, permittivity_at re f = Some e /\ permittivity_at im f = Some h) ->
  (forall t, In t (w_tanks m) -> 0 < t_inductance t /\ (t_core t = false -> 0 < resistance_at m f 0)) ->
  w_tanks m <> [] ->
  exists z, impedance_from_model slab m f = Some z /\ 0 < fst z.
Proof.
  intros m f mt F P D Mt Sc X Y Pt T N. pose proof P as (Pm & _ & Tp & _).
  assert (A : exists k, attenuation slab mt f (mt_permeability mt f) (w_dimensions m) = Some k).
  { unfold attenuation. destruct (mt_permittivity mt) as [[re im]|] eqn:Per; [|eauto].
    destruct (w_dimensions m) as [|d0 ds] eqn:Dm; [eauto|]. rewrite <- Dm in *. clear d0 ds Dm.
    destruct (Pt re im eq_refl) as (e & h & Er & Ei). rewrite Er, Ei. cbn [obind]. destruct (Rle_dec e 0) as [|E0]; [eauto|].
    destruct D as [->|(w & d & W & Dp & ->)]; [cbn; eauto|]. rewrite (positive_both w d W Dp). cbv zeta.
    pose proof (proj2 (Pm mt Mt f F) re im h Per Ei) as H0.
    set (mu := mt_permeability mt f) in *. pose proof (alpha_pos f F) as Al. set (al := (2 * PI * f) ^ 2 * mu_0 * eps_0) in *.
    rewrite double_total, osum_zero.
    assert (Tm : forall a b i j, exists t, series_term a b (cscale al (ctimes (fst mu, - snd mu) (e, - h))) (2 * INR i + 1) (2 * INR j + 1) = Some t).
    { intros a b i j. unfold series_term. cbv zeta.
      assert (Nz : forall c : complex, snd c <> 0 -> exists k, cinverse c = Some k).
      { intros c H. eexists. apply inverse_some. split; [|reflexivity]. intros ->. apply H. reflexivity. }
      match goal with |- context [cinverse ?c] => destruct (Nz c) as (k & ->) end; [|cbn; eauto].
      unfold cscale, cminus, ctimes. cbn [fst snd]. pose proof (pos_INR i). pose proof (pos_INR j). pose proof PI_RGT_0 as Pi.
      assert (S1 : 0 < PI ^ 4) by (apply pow_lt; exact Pi).
      assert (S2 : 0 < PI ^ 4 * (2 * INR i + 1) * (2 * INR i + 1) * (2 * INR j + 1) * (2 * INR j + 1))
        by (repeat (apply Rmult_lt_0_compat; [|lra]); exact S1).
      assert (S3 : 0 < fst mu * h + snd mu * e) by (assert (0 <= fst mu * h) by (apply Rmult_le_pos; assumption); assert (0 < snd mu * e) by (apply Rmult_lt_0_compat; lra); lra).
      assert (S4 : 0 < 0 - al * (fst mu * - h + - snd mu * e)) by nra.
      intro Z. apply Rmult_integral in Z. lra. }
    assert (Tt : forall l : list (option complex), (forall o, In o l -> exists t, o = Some t) -> exists t, total l = Some t).
    { induction l as [|o l IH]; intro H; [cbn; eauto|]. rewrite total_cons. destruct (H o (or_introl eq_refl)) as (t & ->).
      destruct (IH (fun q I => H q (or_intror I))) as (u & ->). cbn. eauto. }
    match goal with |- context [osum (Some (1, 0)) (total ?l)] => destruct (Tt l) as (t & ->) end; [|cbn; eauto].
    intros o I. apply in_map_iff in I. destruct I as (mm & <- & I). apply Tt. intros o J. apply in_map_iff in J.
    destruct J as (nn & <- & J). unfold odds in I, J. apply in_map_iff in I. destruct I as (i & <- & _).
    apply in_map_iff in J. destruct J as (j & <- & _). apply Tm. }
  destruct A as (k & A).
  assert (E : exists mu, effective_permeability slab m f = Some mu /\ 0 < snd mu).
  { unfold effective_permeability. rewrite Mt. cbv zeta. rewrite A. cbn [obind]. eexists. split; [reflexivity|]. cbn [snd].
    pose proof (proj2 (attenuated mt f _ _ k F (Pm mt Mt) (Rlt_le _ _ Y) D A) Y). nra. }
  destruct E as (mu & E & Mu). unfold impedance_from_model. rewrite E. cbn [obind]. rewrite cascade_total, osum_zero.
  assert (Ps : forall t, In t (w_tanks m) -> 0 < fst (series_arm m f mu t)).
  { intros t I. destruct (T t I) as (L & R0). destruct (Tp t I) as (_ & R2). unfold series_arm. cbv zeta. pose proof PI_RGT_0.
    destruct (t_core t); cbn [fst cscale].
    - apply Rmult_lt_0_compat; [|exact Mu]. apply Rmult_lt_0_compat; [|exact L]. apply Rmult_lt_0_compat; lra.
    - specialize (R0 eq_refl). pose proof (resistance_positive m f (t_secondary t) F P).
      assert (0 <= t_ratio2 t * resistance_at m f (t_secondary t)) by (apply Rmult_le_pos; assumption). lra. }
  revert N Ps. clear - F. generalize (w_tanks m). induction l as [|t l IH]; intros N Ps; [contradiction|]. cbn [map]. rewrite total_cons.
  pose proof (Ps t (or_introl eq_refl)) as A. destruct (shunted_total f _ (t_capacitance t) F A) as (z & Z). rewrite Z.
  pose proof (proj2 (shunted_re _ _ _ _ F Z) A) as Zp.
  destruct l as [|u l].
  - cbn. eexists. split; [reflexivity|]. unfold cplus. cbn [fst]. lra.
  - destruct IH as (v & -> & V); [discriminate | intros q I; apply Ps; right; exact I|]. cbn [osum obind]. eexists. split; [reflexivity|].
    unfold cplus. cbn [fst]. lra.
Qed.

(** The order the tanks are listed in does not matter. *)
Theorem C183_order : forall mt dims sc ts ts' dc skin prox fast f,
  Permutation ts ts' ->
  impedance_from_model slab (mkWideband mt dims sc ts dc skin prox fast) f
  = impedance_from_model slab (mkWideband mt dims sc ts' dc skin prox fast) f.
Proof.
  intros mt dims sc ts ts' dc skin prox fast f P. unfold impedance_from_model, effective_permeability. cbn [w_material w_dimensions w_scaling w_tanks].
  match goal with |- obind ?o _ = _ => destruct o as [mu|]; [|reflexivity] end. cbn [obind]. rewrite !cascade_total. f_equal.
  assert (Sa : forall t, series_arm (mkWideband mt dims sc ts dc skin prox fast) f mu t
               = series_arm (mkWideband mt dims sc ts' dc skin prox fast) f mu t) by reflexivity.
  apply total_perm. apply Permutation_map. exact P.
Qed.

(** One tank: the core's inductance times the complex permeability of the material,
    with the capacitance across it. *)
Theorem C183_single_tank : forall mt dims sc l c dc skin prox fast f z,
  0 < f -> 0 < c -> mt_permittivity mt = None ->
  impedance_from_model slab (mkWideband (Some mt) dims sc [mkTank l c true 0 0] dc skin prox fast) f = Some z ->
  in_parallel z (2 * PI * f * l * sc * snd (mt_permeability mt f), 2 * PI * f * l * sc * fst (mt_permeability mt f)) (2 * PI * f * c).
Proof.
  intros mt dims sc l c dc skin prox fast f z F C Np. unfold impedance_from_model, effective_permeability, attenuation.
  cbn [w_material w_dimensions w_scaling w_tanks]. rewrite Np. cbn [obind]. rewrite cascade_total, osum_zero. cbn [map]. rewrite total_cons.
  change (total []) with (Some (0, 0)). rewrite osum_comm, osum_zero. unfold series_arm. cbn [t_core t_inductance t_capacitance].
  cbv zeta. intro H. apply shunted_some in H; [|exact F]. destruct H as [(H & _)|(_ & N & y & -> & I)]; [lra|].
  set (x := fst (mt_permeability mt f)) in *. set (yy := snd (mt_permeability mt f)) in *.
  assert (E : cscale (2 * PI * f * l) (snd (fst (ctimes (x, - yy) (1, 0)) * sc, - snd (ctimes (x, - yy) (1, 0)) * sc),
                 fst (fst (ctimes (x, - yy) (1, 0)) * sc, - snd (ctimes (x, - yy) (1, 0)) * sc))
              = (2 * PI * f * l * sc * yy, 2 * PI * f * l * sc * x)).
  { unfold cscale, ctimes. cbn [fst snd]. f_equal; ring. }
  rewrite E in *. clear E. set (a := 2 * PI * f * l * sc * yy) in *. set (b := 2 * PI * f * l * sc * x) in *.
  set (s := 2 * PI * f * c) in *. apply inverse_some in I. destruct I as (Ny & ->). apply square_nonzero in N. apply square_nonzero in Ny.
  unfold in_parallel. unfold square in *. cbn [fst snd] in *. set (q := a * a + b * b) in *.
  set (r := a / q * (a / q) + (- b / q + s) * (- b / q + s)) in *.
  assert (R : r * q = 1 - 2 * s * b + s * s * q) by (unfold r, q in *; field; lra).
  split; apply Rmult_eq_reg_r with (r * q); try nra.
  - replace ((a / q / r * (1 - s * b) - - (- b / q + s) / r * (s * a)) * (r * q)) with (a * (1 - s * b) + (- b + s * q) * (s * a)) by (field; lra).
    rewrite R. unfold q. ring.
  - replace ((a / q / r * (s * a) + - (- b / q + s) / r * (1 - s * b)) * (r * q)) with (a * (s * a) + (b - s * q) * (1 - s * b)) by (field; lra).
    rewrite R. unfold q. ring.
Qed.

(** Width and depth of the column play the same part. *)
Theorem C183_turned_column : forall mt f mu w d, 0 < w -> 0 < d -> attenuation slab mt f mu [w; d] = attenuation slab mt f mu [d; w].
Proof.
  intros mt f mu w d W D. unfold attenuation. destruct (mt_permittivity mt) as [[re im]|]; [|reflexivity].
  destruct (permittivity_at re f) as [e|]; [|reflexivity]. cbn [obind].
  destruct (permittivity_at im f) as [h|]; [|reflexivity]. cbn [obind]. destruct (Rle_dec e 0); [reflexivity|].
  rewrite (positive_both w d W D), (positive_both d w D W). cbv zeta. now rewrite double_swap.
Qed.

(** The attenuation is the double series over the odd modes of the section. *)
Definition doubled (t : nat -> nat -> R) (n : nat) : R := sum_f_R0 (fun i => sum_f_R0 (fun j => t i j) n) n.
Lemma total_sum : forall (g : nat -> option complex) (t : nat -> complex) n,
  (forall i, (i <= n)%nat -> g i = Some (t i)) ->
  total (map g (seq 0 (S n))) = Some (sum_f_R0 (fun i => fst (t i)) n, sum_f_R0 (fun i => snd (t i)) n).
Proof.
  intros g t n. induction n as [|n IH]; intro H.
  - cbn [seq map]. rewrite total_cons. change (total []) with (Some (0, 0)). rewrite osum_comm, osum_zero, H by lia. cbn. now rewrite <- surjective_pairing.
  - rewrite seq_S, map_app, total_app, IH by (intros i L; apply H; lia). cbn [map]. rewrite total_cons. change (total []) with (Some (0, 0)).
    rewrite (osum_comm (g _)), osum_zero, H by lia. reflexivity.
Qed.
Theorem C183_series : forall mt f mu w d re im e h factor,
  0 < w -> 0 < d -> 0 < e -> mt_permittivity mt = Some (re, im) -> permittivity_at re f = Some e -> permittivity_at im f = Some h ->
  attenuation slab mt f mu [w; d] = Some factor ->
  let k2 := cscale ((2 * PI * f) ^ 2 * mu_0 * eps_0) (ctimes (fst mu, - snd mu) (e, - h)) in
  exists t : nat -> nat -> complex,
    (forall i j, (i <= 40)%nat -> (j <= 40)%nat ->
       let m := 2 * INR i + 1 in let n := 2 * INR j + 1 in
       ctimes (t i j) (cminus (m ^ 2 * PI ^ 2 / w ^ 2 + n ^ 2 * PI ^ 2 / d ^ 2, 0) k2) = cscale (64 / (PI ^ 4 * m ^ 2 * n ^ 2)) k2)
    /\ factor = (1 + doubled (fun i j => fst (t i j)) 40, doubled (fun i j => snd (t i j)) 40).
Proof.
  intros mt f mu w d re im e h factor W D E0 Pm Er Ei A k2. unfold attenuation in A. rewrite Pm, Er, Ei in A. cbn [obind] in A.
  destruct (Rle_dec e 0) as [|_]; [lra|]. rewrite (positive_both w d W D) in A. cbv zeta in A. fold k2 in A.
  rewrite double_total, osum_zero in A.
  set (g := fun i j : nat => series_term w d k2 (2 * INR i + 1) (2 * INR j + 1)).
  assert (Eq : forall n, total (map (fun m => total (map (series_term w d k2 m) (odds n))) (odds n))
             = total (map (fun i => total (map (g i) (seq 0 n))) (seq 0 n))).
  { intro n. unfold odds, g. rewrite map_map. f_equal. apply map_ext. intro i. f_equal. now rewrite map_map. }
  rewrite Eq in A. clear Eq. change 41%nat with (S 40) in A.
  apply osum_some in A. destruct A as (u & v & E1 & E2 & ->). injection E1 as <-.
  set (t := fun i j => match g i j with Some x => x | None => (0, 0) end).
  assert (In_some : forall (l : list (option complex)) z, total l = Some z -> forall o, In o l -> exists x, o = Some x).
  { induction l as [|o l IH]; intros z H q I; [destruct I|]. rewrite total_cons in H. apply osum_some in H. destruct H as (a & b & -> & H & _).
    destruct I as [<- |I]; [eauto | apply (IH b H q I)]. }
  assert (G : forall i j, (i <= 40)%nat -> (j <= 40)%nat -> g i j = Some (t i j)).
  { intros i j Li Lj.
    destruct (In_some _ _ E2 (total (map (g i) (seq 0 (S 40))))) as (x & X).
    { apply in_map_iff. exists i. split; [reflexivity | apply in_seq; lia]. }
    destruct (In_some _ _ X (g i j)) as (y & Y).
    { apply in_map_iff. exists j. split; [reflexivity | apply in_seq; lia]. }
    unfold t. now rewrite Y. }
  exists t. split.
  - intros i j Li Lj. cbv zeta. specialize (G i j Li Lj). unfold g, series_term in G. cbv zeta in G. clear E2 In_some.
    set (m := 2 * INR i + 1) in *. set (n := 2 * INR j + 1) in *.
    assert (M0 : 0 < m) by (unfold m; pose proof (pos_INR i); lra). assert (N0 : 0 < n) by (unfold n; pose proof (pos_INR j); lra).
    pose proof PI_RGT_0 as Pi. assert (P4 : 0 < PI ^ 4) by (apply pow_lt; exact Pi).
    replace (m ^ 2 * PI ^ 2 / w ^ 2 + n ^ 2 * PI ^ 2 / d ^ 2) with ((m * PI / w) ^ 2 + (n * PI / d) ^ 2) by (field; lra).
    set (K := (m * PI / w) ^ 2 + (n * PI / d) ^ 2) in *.
    assert (S0 : 0 < PI ^ 4 * m * m * n * n) by (repeat (apply Rmult_lt_0_compat; [|assumption]); exact P4).
    replace (PI ^ 4 * m ^ 2 * n ^ 2) with (PI ^ 4 * m * m * n * n) by ring. set (s := PI ^ 4 * m * m * n * n) in *.
    clearbody K s. clear Pm Er Ei. unfold cminus in *. cbn [fst snd] in *.
    destruct (cinverse _) as [v'|] eqn:I in G; [|discriminate]. cbn [obind] in G. injection G as G. rewrite <- G. clear G t.
    apply inverse_some in I. destruct I as (Nz & ->). apply square_nonzero in Nz. unfold square, cscale in *. cbn [fst snd] in *.
    set (Dr := K - fst k2) in *. set (Di := 0 - snd k2) in *. set (kr := fst k2) in *. set (ki := snd k2) in *.
    assert (Q : s * Dr * (s * Dr) + s * Di * (s * Di) = s * s * (Dr * Dr + Di * Di)) by ring. rewrite Q in *.
    assert (Qp : 0 < Dr * Dr + Di * Di) by nra.
    unfold ctimes. cbn [fst snd]. f_equal; field; split; lra.
  - rewrite (total_sum _ (fun i => (sum_f_R0 (fun j => fst (t i j)) 40, sum_f_R0 (fun j => snd (t i j)) 40)) 40) in E2.
    + injection E2 as <-. unfold cplus, doubled. cbn [fst snd]. now rewrite Rplus_0_l.
    + intros i Li. apply (total_sum (g i) (t i) 40). intros j Lj. apply G; assumption.
Qed.
End Theorems.

(** * C184: one magnetic, several figures *)
Section Figures.
Variable slab : complex -> R -> option complex.
Variable coil : Type.
Variable wound : coil -> bool.
Variable wind unsectioned : coil -> coil.
Variable winding_turns : coil -> list R.
Variable capacitance_model : Type.
Variable albach : capacitance_model.
Variable stray : capacitance_model -> coil -> nat -> nat -> R.
Variable one_layer : coil -> R.
Variable leakage : coil -> R -> nat -> R.
Variable dc_resistances : coil -> list R.
Variable skin_of : coil -> list (R * (R -> R)).
Variable proximity_of : coil -> nat -> R -> R.
Notation common := (common_mode_model coil wound wind unsectioned winding_turns capacitance_model stray one_layer).
Notation impedance := (calculate_impedance slab coil wound wind unsectioned winding_turns capacitance_model stray one_layer).
Notation biased_impedance := (calculate_biased_impedance slab coil wound wind unsectioned winding_turns capacitance_model stray one_layer).
Notation magnetizing := (magnetizing_tank coil wound wind unsectioned winding_turns capacitance_model stray one_layer).
Notation wide := (wideband_model coil wound wind unsectioned winding_turns capacitance_model albach stray one_layer leakage
                    dc_resistances skin_of proximity_of).

(** Winding a coil changes no number of turns. *)
Definition winding_keeps_turns : Prop :=
  (forall c, winding_turns (wind c) = winding_turns c) /\ (forall c, winding_turns (unsectioned c) = winding_turns c).

Lemma magnetizing_keeps : forall fc chosen p c t c', winding_keeps_turns -> magnetizing fc chosen p c = Ok (t, c') ->
  winding_turns c' = winding_turns c /\ t_core t = true /\ winding_turns c <> [].
Proof.
  intros fc chosen p c t c' (K1 & K2). unfold magnetizing_tank, prepared. destruct p as [[r cols]|]; [|discriminate].
  destruct (winding_turns c) as [|n l] eqn:E; [discriminate|]. cbv zeta. destruct fc.
  - intro H. injection H as <- <-. rewrite E. repeat split; discriminate.
  - unfold stray_of. destruct (wound c) eqn:W1; [rewrite W1; intro H; injection H as <- <-; rewrite E; repeat split; discriminate|].
    destruct (wound (wind c)) eqn:W2; [rewrite W2; intro H; injection H as <- <-; rewrite K1, E; repeat split; discriminate|].
    destruct (wound (wind (unsectioned c))) eqn:W3; [rewrite W3; intro H; injection H as <- <-; rewrite K1, K2, E; repeat split; discriminate | discriminate].
Qed.

(** The single-frequency impedance of a magnetic with one winding is its wideband model's. *)
Theorem C184_one_winding : forall fc chosen fast reference g f n,
  winding_keeps_turns -> winding_turns (g_coil coil g) = [n] ->
  impedance fc chosen g f
  = match wide fc chosen fast reference g with
    | Ok m => Ok (impedance_from_model slab m f) | Throw e => Throw e | UB e => UB e | OutOfFuel => OutOfFuel
    end.
Proof.
  intros fc chosen fast reference g f n K N. unfold calculate_impedance, common_mode_model, wideband_model.
  destruct (magnetizing fc chosen (g_processed coil g) (g_coil coil g)) as [[t c]|e|e|] eqn:M; try reflexivity.
  destruct (magnetizing_keeps _ _ _ _ _ _ K M) as (T & Tc & _). rewrite T, N. f_equal.
  unfold impedance_from_model, plain_model, effective_permeability. cbn [w_material w_dimensions w_scaling w_tanks].
  match goal with |- obind ?o _ = _ => destruct o as [mu|]; [|reflexivity] end. cbn [obind cascade]. unfold series_arm. rewrite Tc. reflexivity.
Qed.

(** The leakage of further windings only adds loss to the common-mode figure. *)
Lemma tanks_shape : forall c measured f turns others i ts,
  leakage_tanks coil wound capacitance_model albach stray leakage c measured f turns others i = Ok ts ->
  forall t, In t ts -> t_core t = false /\ 0 < t_inductance t /\ 0 <= t_ratio2 t.
Proof.
  intros c measured f turns others. induction others as [|n l IH]; intros i ts H t I; cbn [leakage_tanks] in H.
  - injection H as <-. destruct I.
  - destruct (leakage_of _ _ _ _ _ _) as [lk|e|e|]; try discriminate.
    destruct (leakage_tanks _ _ _ _ _ _ _ _ _ _ _ _) as [rest|e|e|] eqn:E; try discriminate.
    destruct (Rle_dec lk 0) as [L|L]; [injection H as <-; apply (IH _ _ E t I)|].
    destruct (stray_of _ _ _ _ _ _ _ _) as [x|e|e|]; try discriminate. injection H as <-. destruct I as [<- |I]; [|apply (IH _ _ E t I)].
    cbn. repeat split; [lra|]. destruct (Rlt_dec 0 n); [|lra]. pose proof (pow2_ge_0 (turns / n)). lra.
Qed.
(** What the leakage of a winding costs: for a primary current the resistance of the
    primary and that of the winding for the current of as many ampere turns. *)
Lemma tanks_ratio : forall c measured f turns others i ts,
  leakage_tanks coil wound capacitance_model albach stray leakage c measured f turns others i = Ok ts ->
  forall t, In t ts -> exists k nk, nth_error others k = Some nk /\ t_secondary t = (i + k)%nat /\ (0 < nk -> t_ratio2 t = (turns / nk) ^ 2).
Proof.
  intros c measured f turns others. induction others as [|n l IH]; intros i ts H t I; cbn [leakage_tanks] in H.
  - injection H as <-. destruct I.
  - assert (Later : forall i' ts', leakage_tanks coil wound capacitance_model albach stray leakage c measured f turns l (S i') = Ok ts' -> In t ts' ->
      exists k nk, nth_error (n :: l) k = Some nk /\ t_secondary t = (i' + k)%nat /\ (0 < nk -> t_ratio2 t = (turns / nk) ^ 2)).
    { intros i' ts' E J. destruct (IH _ _ E t J) as (k & nk & A & B & C). exists (S k), nk. split; [exact A|]. split; [rewrite B; lia|exact C]. }
    destruct (leakage_of _ _ _ _ _ _) as [lk|e|e|]; try discriminate.
    destruct (leakage_tanks _ _ _ _ _ _ _ _ _ _ _ _) as [rest|e|e|] eqn:E; try discriminate.
    destruct (Rle_dec lk 0) as [L|L]; [injection H as <-; apply (Later _ _ E I)|].
    destruct (stray_of _ _ _ _ _ _ _ _) as [x|e|e|]; try discriminate. injection H as <-. destruct I as [<- |I]; [|apply (Later _ _ E I)].
    exists 0%nat, n. split; [reflexivity|]. cbn [t_secondary t_ratio2]. split; [lia|]. intro P. destruct (Rlt_dec 0 n); [reflexivity|contradiction].
Qed.
Theorem C184_leakage_arm : forall fc chosen fast reference g m t,
  winding_keeps_turns -> wide fc chosen fast reference g = Ok m -> In t (w_tanks m) -> t_core t = false ->
  exists k n nk, (1 <= k)%nat /\ nth_error (winding_turns (g_coil coil g)) 0 = Some n /\ nth_error (winding_turns (g_coil coil g)) k = Some nk /\
    (0 < nk -> forall f mu i, fst (series_arm m f mu t) * i ^ 2 = resistance_at m f 0 * i ^ 2 + resistance_at m f k * (i * n / nk) ^ 2) /\
    (forall f mu, snd (series_arm m f mu t) = 2 * PI * f * t_inductance t).
Proof.
  intros fc chosen fast reference g m t K W I C. unfold wideband_model in W.
  destruct (magnetizing _ _ _ _) as [[t0 c]|e|e|] eqn:M; try discriminate. destruct (magnetizing_keeps _ _ _ _ _ _ K M) as (Wc & Tc & _).
  rewrite <- Wc. destruct (winding_turns c) as [|n [|n2 l]] eqn:E.
  - injection W as <-. destruct I as [<- |[]]. congruence.
  - injection W as <-. destruct I as [<- |[]]. congruence.
  - destruct (stray_of _ _ _ _ _ _ _ _) as [x|e|e|]; try discriminate.
    destruct (leakage_tanks _ _ _ _ _ _ _ _ _ _ _ _) as [ts|e|e|] eqn:L; try discriminate. injection W as <-.
    destruct I as [<- |I]; [congruence|]. destruct (tanks_ratio _ _ _ _ _ _ _ L t I) as (k & nk & A & B & R).
    exists (S k), n, nk. split; [lia|]. split; [reflexivity|]. split; [exact A|]. split.
    + intros P f mu i. unfold series_arm. rewrite C, B, (R P). cbn [fst]. change (1 + k)%nat with (S k). field. lra.
    + intros f mu. unfold series_arm. rewrite C. reflexivity.
Qed.
(** The column is the first one, with both its sizes. *)
Theorem C184_first_column : forall fc chosen fast reference g m area w d rest,
  wide fc chosen fast reference g = Ok m -> g_processed coil g = Some (area, (w, d) :: rest) -> w_dimensions m = [w; d].
Proof.
  intros fc chosen fast reference g m area w d rest W P. unfold wideband_model in W. rewrite P in W.
  destruct (magnetizing _ _ _ _) as [[t0 c]|e|e|]; try discriminate. destruct (winding_turns c) as [|n [|n2 l]]; try (injection W as <-; reflexivity).
  destruct (stray_of _ _ _ _ _ _ _ _) as [x|e|e|]; try discriminate.
  destruct (leakage_tanks _ _ _ _ _ _ _ _ _ _ _ _) as [ts|e|e|]; try discriminate. injection W as <-. reflexivity.
Qed.
Theorem C184_windings_add : forall fc chosen fast reference g m f z z0,
  0 < f -> wide fc chosen fast reference g = Ok m -> passive_model m -> column_sizes (w_dimensions m) ->
  impedance fc chosen g f = Ok (Some z0) -> impedance_from_model slab m f = Some z ->
  fst z0 <= fst z.
Proof.
  intros fc chosen fast reference g m f z z0 F Wm P D. unfold calculate_impedance, common_mode_model, wideband_model in *.
  destruct (magnetizing fc chosen (g_processed coil g) (g_coil coil g)) as [[t c]|e|e|] eqn:M; try discriminate.
  intro H. injection H as H.
  assert (Mat : w_material m = Some (g_material coil g) /\ w_dimensions m = dimensions_of (g_processed coil g) /\ w_scaling m = 1
            /\ exists ts, w_tanks m = t :: ts).
  { destruct (winding_turns c) as [|n [|n2 others]]; [injection Wm as <-; cbn; eauto | injection Wm as <-; cbn; eauto|].
    destruct (stray_of _ _ _ _ _ _ _ _) as [x|e|e|]; try discriminate.
    destruct (leakage_tanks _ _ _ _ _ _ _ _ _ _ _ _) as [ts|e|e|]; try discriminate. injection Wm as <-. cbn. eauto. }
  assert (Tc : t_core t = true).
  { unfold magnetizing_tank in M. destruct (g_processed coil g) as [[r cols]|]; [|discriminate].
    destruct (winding_turns (g_coil coil g)) as [|n l]; [discriminate|]. cbv zeta in M.
    match type of M with match ?o with _ => _ end = _ => destruct o as [[x c']|e|e|]; try discriminate end. injection M as <- <-. reflexivity. }
  destruct Mat as (Ma & Di & Sc & ts & Ts). unfold impedance_from_model, plain_model in *.
  assert (Eff : effective_permeability slab m f = effective_permeability slab
     (mkWideband (Some (g_material coil g)) (dimensions_of (g_processed coil g)) 1 [t] [] None None true) f).
  { unfold effective_permeability. rewrite Ma, Di, Sc. reflexivity. }
  rewrite Eff. intro Z. destruct (effective_permeability slab _ f) as [mu|] eqn:E; [|discriminate]. cbn [obind] in *.
  rewrite cascade_total, osum_zero in H, Z. rewrite Ts in Z. cbn [map w_tanks] in H, Z. rewrite total_cons in H, Z.
  change (total []) with (Some (0, 0)) in H. rewrite osum_comm, osum_zero in H.
  assert (Arm : series_arm m f mu t = series_arm (mkWideband (Some (g_material coil g)) (dimensions_of (g_processed coil g)) 1 [t] [] None None true) f mu t).
  { unfold series_arm. rewrite Tc. reflexivity. }
  rewrite Arm, H in Z. apply osum_some in Z. destruct Z as (a & b & Ea & Eb & ->). injection Ea as <-. unfold cplus. cbn [fst].
  assert (0 <= fst b); [|lra]. eapply total_re; [|exact Eb]. intros x I. apply in_map_iff in I. destruct I as (u & Hu & I).
  apply shunted_re in Hu; [|exact F]. apply Hu. apply arm_positive; [exact F | exact P | rewrite Ts; right; exact I|].
  pose proof P as (Pm & Sp & _). apply (proj1 (C183_effective_loss slab m f mu F Pm Sp D Eff)).
Qed.

(** A bias that leaves the permeability alone leaves the impedance alone. *)
Theorem C184_no_bias : forall fc chosen g p f, biased_impedance fc chosen g p p f = impedance fc chosen g f.
Proof.
  intros fc chosen g p f. unfold calculate_biased_impedance, calculate_impedance. destruct (Rlt_dec 0 p) as [P|P]; [|reflexivity].
  replace (p / p) with 1 by (field; lra). reflexivity.
Qed.
(** Without a capacitance, the impedance falls in proportion to the permeability the
    bias leaves. *)
Theorem C184_bias_scales : forall fc chosen g initial biased f t c z,
  0 < initial -> magnetizing fc chosen (g_processed coil g) (g_coil coil g) = Ok (t, c) -> t_capacitance t <= 0 ->
  impedance fc chosen g f = Ok (Some z) ->
  biased_impedance fc chosen g initial biased f = Ok (Some (cscale (biased / initial) z)).
Proof.
  intros fc chosen g initial biased f t c z I0 M C. unfold calculate_biased_impedance, calculate_impedance, common_mode_model.
  rewrite M. destruct (Rlt_dec 0 initial) as [_|]; [|lra]. intro H. injection H as H. f_equal.
  assert (Tc : t_core t = true).
  { unfold magnetizing_tank in M. destruct (g_processed coil g) as [[r cols]|]; [|discriminate].
    destruct (winding_turns (g_coil coil g)) as [|n l]; [discriminate|]. cbv zeta in M.
    match type of M with match ?o with _ => _ end = _ => destruct o as [[x c']|e|e|]; try discriminate end. injection M as <- <-. reflexivity. }
  unfold impedance_from_model, plain_model, effective_permeability in *. cbn [w_material w_dimensions w_scaling w_tanks] in *.
  destruct (attenuation _ _ _ _ _) as [k|]; [|discriminate]. cbn [obind cascade] in *. unfold series_arm, shunted in *. rewrite Tc in *.
  destruct (Rlt_dec 0 (t_capacitance t)) as [|_]; [lra|]. cbn [osum obind] in *. injection H as <-. f_equal.
  unfold cplus, cscale, ctimes. cbn [fst snd]. f_equal; ring.
Qed.

(** The quality factor of a core without permittivity: the material's own, less what
    the capacitance takes. *)
Theorem C184_q : forall mt dims l c dc skin prox fast f q,
  0 < f -> 0 < l -> mt_permittivity mt = None ->
  let mu1 := fst (mt_permeability mt f) in let mu2 := snd (mt_permeability mt f) in
  q_factor (impedance_from_model slab (mkWideband (Some mt) dims 1 [mkTank l c true 0 0] dc skin prox fast) f) = Some q ->
  mu2 <> 0 ->
  (c <= 0 -> q = mu1 / mu2)
  /\ (0 < c -> q = mu1 / mu2 - (2 * PI * f) ^ 2 * l * c * (mu1 ^ 2 + mu2 ^ 2) / mu2).
Proof.
  intros mt dims l c dc skin prox fast f q F L Np mu1 mu2 Q M. unfold q_factor in Q.
  destruct (impedance_from_model slab _ f) as [z|] eqn:Z; [|discriminate]. cbn [obind] in Q.
  destruct (Req_EM_T (fst z) 0) as [|Nz]; [discriminate|]. injection Q as <-. pose proof PI_RGT_0 as Pi.
  assert (W : 0 < 2 * PI * f) by (apply Rmult_lt_0_compat; lra). split; intro C.
  - unfold impedance_from_model, effective_permeability, attenuation in Z. cbn [w_material w_dimensions w_scaling w_tanks] in Z.
    rewrite Np in Z. cbn [obind cascade] in Z. unfold series_arm, shunted in Z. cbn [t_core t_capacitance t_inductance] in Z.
    destruct (Rlt_dec 0 c) as [|_]; [lra|]. cbn [osum obind] in Z. injection Z as <-. unfold cplus, cscale, ctimes in *. cbn [fst snd] in *.
    fold mu1 mu2 in Nz |- *. field. repeat split; try lra; intro; apply Nz; nra.
  - pose proof (C183_single_tank slab mt dims 1 l c dc skin prox fast f z F C Np Z) as (E1 & E2). cbn [fst snd] in E1, E2. fold mu1 mu2 in E1, E2.
    set (w := 2 * PI * f) in *. set (x := fst z) in *. set (y := snd z) in *.
    assert (Eq : y * mu2 = x * mu1 - x * (w ^ 2 * l * c * (mu1 ^ 2 + mu2 ^ 2))).
    { apply Rmult_eq_reg_l with (w * l); [|apply Rgt_not_eq; nra].
      set (a := w * l * 1 * mu2) in *. set (b := w * l * 1 * mu1) in *. set (s := w * c) in *.
      assert (Cr : x * b - y * a = s * x * (a ^ 2 + b ^ 2)).
      2: { replace (w * l * (y * mu2)) with (y * a) by (unfold a; ring).
           replace (w * l * (x * mu1 - x * (w ^ 2 * l * c * (mu1 ^ 2 + mu2 ^ 2)))) with (x * b - s * x * (a ^ 2 + b ^ 2)) by (unfold a, b, s; ring).
           lra. }
      assert (X1 : x * b - y * a = b * (x * (1 - s * b) - y * (s * a)) - a * (x * (s * a) + y * (1 - s * b)) + s * x * (a ^ 2 + b ^ 2)) by ring.
      rewrite X1, E1, E2. ring. }
    apply Rmult_eq_reg_r with (x * mu2); [|apply Rmult_integral_contrapositive_currified; assumption].
    replace (y / x * (x * mu2)) with (y * mu2) by (field; exact Nz). rewrite Eq. field. exact M.
Qed.
End Figures.

(** * Witnesses *)
(** A lossy ferrite with a permittivity, one winding and a second one, over a section
    of 10 mm by 12 mm. *)
Definition ferrite : material :=
  mkMaterial (fun _ => (2000, 150)) (Some (Single (mkPoint None 100000), Single (mkPoint None 20000))).
Definition choke : wideband :=
  mkWideband (Some ferrite) [10 / 1000; 12 / 1000] 1
    [mkTank (1 / 1000) (1 / 1000000000) true 0 0; mkTank (1 / 100000) (1 / 1000000000) false 1 4]
    [1 / 10; 1 / 40] (Some [(1 / 100, fun _ => 2 / 100); (1 / 200, fun _ => 3 / 200)]) None true.
Lemma choke_passive : passive_model choke.
Proof.
  unfold passive_model, choke, no_gain. cbn [w_material w_scaling w_tanks w_dc w_skin w_proximity]. repeat split.
  - injection H as <-. cbn. lra.
  - intros re im v E E'. injection H as <-. cbn in E. injection E as <- <-. cbn in E'. injection E' as <-. lra.
  - lra.
  - destruct H as [<- |[<- |[]]]; cbn; lra.
  - destruct H as [<- |[<- |[]]]; cbn; lra.
  - repeat constructor; lra.
  - intros l E dc ac f I F. injection E as <-. destruct I as [I|[I|[]]]; injection I as <- <-; lra.
  - intros p E. discriminate.
Qed.
Example C183_witness : forall slab f, 0 < f ->
  exists z, impedance_from_model slab choke f = Some z /\ 0 < fst z.
Proof.
  intros slab f F. apply C183_lossy_finite with ferrite; try (cbn; lra); try assumption; try exact choke_passive; try reflexivity.
  - right. exists (10 / 1000), (12 / 1000). split; [lra | split; [lra | reflexivity]].
  - intros re im E. injection E as <- <-. cbn. eauto.
  - intros t [<- |[<- |[]]]; cbn; split; try lra; try discriminate. intros _. destruct (Rlt_dec 0 (1 / 100)); lra.
  - discriminate.
Qed.
Example C184_witness : exists z0,
  calculate_impedance (fun _ _ => None) nat (fun _ => true) S S (fun _ => [10; 5]) unit (fun _ _ _ _ => 0) (fun _ => 0) false tt
    (mkMagnetic nat (mkMaterial (fun _ => (2000, 150)) None) (Some (1000000, [(1, 1)])) 0%nat) 1000 = Ok (Some z0)
  /\ fst z0 = 2 * PI * 1000 * (100 / 1000000) * 150.
Proof.
  unfold calculate_impedance, common_mode_model, magnetizing_tank, prepared, stray_of, impedance_from_model, effective_permeability, attenuation, plain_model.
  cbn [g_processed g_coil g_material mt_permittivity mt_permeability obind w_material w_dimensions w_scaling w_tanks cascade t_capacitance fst snd].
  unfold shunted, series_arm. cbn [t_capacitance t_core t_inductance]. destruct (Rlt_dec 0 _) as [L|L]; [cbn in L; lra|]. cbn [osum obind].
  eexists. split; [reflexivity|]. unfold cplus, cscale, ctimes. cbn [fst snd]. field.
Qed.
Example C184_leakage_witness : exists m t,
  wideband_model nat (fun _ => true) S S (fun _ => [10; 5]) unit tt (fun _ _ _ _ => 0) (fun _ => 0) (fun _ _ _ => 1 / 1000) (fun _ => [1; 2])
    (fun _ => []) (fun _ _ _ => 0) false tt true 1000
    (mkMagnetic nat (mkMaterial (fun _ => (2000, 150)) None) (Some (1000000, [(1, 1)])) 0%nat) = Ok m
  /\ In t (w_tanks m) /\ t_core t = false /\ t_ratio2 t = 4 /\ w_dimensions m = [1; 1].
Proof.
  unfold wideband_model, magnetizing_tank, prepared, stray_of. cbn [g_processed g_coil leakage_tanks]. unfold leakage_of, stray_of.
  destruct (Rle_dec (1 / 1000) 0) as [L|L]; [lra|]. destruct (Rlt_dec 0 5) as [P|P]; [|lra].
  do 2 eexists. split; [reflexivity|]. split; [right; left; reflexivity|]. split; [reflexivity|]. split; [cbn [t_ratio2]; field|reflexivity].
Qed.

Print Assumptions C183_effective_loss.
Print Assumptions C183_passive.
Print Assumptions C183_lossy_finite.
Print Assumptions C183_order.
Print Assumptions C183_single_tank.
Print Assumptions C183_turned_column.
Print Assumptions C183_series.
Print Assumptions C184_one_winding.
Print Assumptions C184_leakage_arm.
Print Assumptions C184_first_column.
Print Assumptions C184_windings_add.
Print Assumptions C184_no_bias.
Print Assumptions C184_bias_scales.
Print Assumptions C184_q.
