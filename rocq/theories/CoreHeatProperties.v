(** * The temperature of a core: C179 *)
From Coq Require Import Reals List Lra Lia ZArith String.
From Verif Require Import Base CoreLossModel CoreHeatModel.
Import ListNotations.
Local Open Scope R_scope.
Local Open Scope outcome_scope.

(** A core of positive sizes. *)
Definition solid (c : body) : Prop :=
  0 < volume c /\ 0 < width c /\ 0 < height c /\ 0 < depth c /\
  (exists a, hd_error (columns c) = Some a /\ 0 < a) /\
  (exists w, hd_error (windows c) = Some (Some w) /\ 0 < w).

(** One core at least as large as another in all that the models read. *)
Definition larger (c c' : body) : Prop :=
  volume c <= volume c' /\ width c <= width c' /\ height c <= height c' /\ depth c <= depth c' /\
  (forall a a', hd_error (columns c) = Some a -> hd_error (columns c') = Some a' -> a <= a') /\
  (forall w w', hd_error (windows c) = Some (Some w) -> hd_error (windows c') = Some (Some w') -> w <= w').

(** The resistance of a core, for the models that have one. *)
Definition resistance (m : heat_model) (c : body) : option R :=
  match m with
  | Maniktala => Some (53 * Rpower (volume c * 1000000) (- (54 / 100)))
  | Tdk => Some (1 / sqrt (volume c * 1000000))
  | Dixon => Some (23 * Rpower (hd 0 (columns c) * match hd None (windows c) with Some w => w | None => 0 end
                                * 100000000) (- (37 / 100)))
  | _ => None
  end.
(** The power of the others: of the milliwatts per square centimetre. *)
Definition exponent (m : heat_model) : R :=
  match m with Kazimierczuk => 826 / 1000 | _ => 833 / 1000 end.

(** What a positive dissipation gives. *)
Definition expected (m : heat_model) (c : body) (losses : R) : R :=
  match resistance m c with
  | Some r => losses * r
  | None => if Rlt_dec 0 losses then Rpower (1 / 10 * losses / surface c) (exponent m) else 0
  end.

Lemma solid_surface : forall c, solid c -> 0 < surface c.
Proof.
  intros c (_ & W & H & D & _). unfold surface.
  assert (0 < depth c * height c) by (apply Rmult_lt_0_compat; assumption).
  assert (0 < height c * width c) by (apply Rmult_lt_0_compat; assumption).
  assert (0 < width c * depth c) by (apply Rmult_lt_0_compat; assumption). lra.
Qed.

Lemma rise_expected : forall m c losses, solid c -> 0 <= losses ->
  temperature_rise m c losses = Ok (Some (expected m c losses)).
Proof.
  intros m c losses S L. pose proof (solid_surface c S) as Su.
  assert (Power : forall num den e, 0 < e -> 0 <= num -> num / den = 1 / 10 * losses / surface c -> den <> 0 ->
    (0 < losses -> 0 < num / den) -> (losses = 0 -> num = 0) ->
    fpow (fdiv (Some num) (Some den)) e =
    Some (if Rlt_dec 0 losses then Rpower (1 / 10 * losses / surface c) e else 0)).
  { intros num den e E N Q Dn P Z. unfold fdiv, fpow. destruct (Req_EM_T den 0); [contradiction|].
    unfold cpow. destruct (Rlt_dec 0 losses) as [Pl | Pl].
    - destruct (Rlt_dec 0 (num / den)) as [_ | C]; [|exfalso; apply C; auto]. now rewrite Q.
    - assert (losses = 0) by lra. rewrite (Z H). unfold Rdiv. rewrite Rmult_0_l.
      destruct (Rlt_dec 0 0); [lra|]. destruct (Req_EM_T 0 0); [|lra].
      destruct (Rlt_dec 0 e); [reflexivity|lra]. }
  assert (Pw : forall x y, 0 < x -> cpow x y = Some (Rpower x y)).
  { intros x y P. unfold cpow. destruct (Rlt_dec 0 x); [reflexivity|contradiction]. }
  destruct S as (V & W & H & D & (a & Ha & Pa) & (w & Hw & Pw')).
  destruct m; unfold temperature_rise, expected, resistance; cbn [exponent].
  - rewrite Power; [reflexivity|lra|lra|reflexivity|lra| |intros; lra].
    intros P. apply Rdiv_lt_0_compat; lra.
  - rewrite Pw by lra. reflexivity.
  - unfold over_root. destruct (Rlt_dec 0 (volume c * 1000000)); [reflexivity|lra].
  - destruct (columns c) as [|a' cs]; [discriminate|]. cbn in Ha. injection Ha as ->.
    destruct (windows c) as [|[w'|] ws]; [discriminate| |discriminate]. cbn in Hw. injection Hw as ->.
    cbn [hd]. rewrite Pw; [reflexivity|].
    assert (0 < a * w) by (apply Rmult_lt_0_compat; assumption). lra.
  - rewrite Power; [reflexivity|lra|lra|field; lra|lra| |intros; lra].
    intros P. apply Rdiv_lt_0_compat; lra.
Qed.

Lemma expected_nonneg : forall m c losses, solid c -> 0 <= losses -> 0 <= expected m c losses.
Proof.
  intros m c losses S L. unfold expected.
  assert (RP : forall x y, 0 < Rpower x y) by (intros; unfold Rpower; apply exp_pos).
  destruct m; cbn [resistance];
    try (destruct (Rlt_dec 0 losses); [apply Rlt_le, RP|lra]).
  - apply Rmult_le_pos; [exact L|]. apply Rlt_le, Rmult_lt_0_compat; [lra|apply RP].
  - apply Rmult_le_pos; [exact L|]. apply Rlt_le, Rdiv_lt_0_compat; [lra|]. apply sqrt_lt_R0.
    destruct S as (V & _). lra.
  - apply Rmult_le_pos; [exact L|]. apply Rlt_le, Rmult_lt_0_compat; [lra|apply RP].
Qed.

(** The report of a core: it starts from the ambient, is never below it, and the
    resistance times the losses is the rise. A core without losses stays at the
    ambient. *)
Theorem C179_report : forall m c losses ambient, solid c -> 0 <= losses ->
  exists hot k, core_temperature m c losses ambient = Ok {| initial := ambient; maximum := Some hot; bulk := Some k |} /\
    ambient <= hot /\ k * losses = hot - ambient /\ (losses = 0 -> hot = ambient) /\ 0 <= k.
Proof.
  intros m c losses ambient S L. unfold core_temperature.
  rewrite (rise_expected m c losses S L). cbn [bind fadd fmap2].
  pose proof (expected_nonneg m c losses S L) as N.
  assert (Z : losses = 0 -> expected m c losses = 0).
  { intros ->. unfold expected. destruct (resistance m c); [lra|]. destruct (Rlt_dec 0 0); lra. }
  destruct (Rlt_dec 0 losses) as [P | P].
  - unfold fdiv. destruct (Req_EM_T losses 0); [lra|].
    eexists. eexists. split; [reflexivity|]. split; [lra|]. split; [field; lra|]. split; [intros; lra|].
    apply Rmult_le_pos; [lra|]. apply Rlt_le, Rinv_0_lt_compat, P.
  - assert (losses = 0) by lra. specialize (Z H).
    eexists. eexists. split; [reflexivity|]. rewrite Z, H. split; [lra|]. split; [lra|]. split; [intros; lra|lra].
Qed.

(** The ambient is added: the same losses heat as much at every ambient. *)
Theorem C179_ambient : forall m c losses a a' r r',
  core_temperature m c losses a = Ok r -> core_temperature m c losses a' = Ok r' ->
  forall hot, maximum r = Some hot -> maximum r' = Some (hot - a + a').
Proof.
  intros m c losses a a' r r' H H' hot M. unfold core_temperature in *.
  destruct (temperature_rise m c losses) as [x| | |]; try discriminate. cbn [bind] in *.
  injection H as <-. injection H' as <-. cbn [maximum] in *.
  destruct x as [x|]; [|discriminate]. cbn in *. injection M as <-. f_equal. lra.
Qed.

Lemma Rpower_mono : forall x y e, 0 < x -> x < y -> 0 < e -> Rpower x e < Rpower y e.
Proof. intros x y e P L E. apply Rlt_Rpower_l; [exact E|lra]. Qed.
Lemma Rpower_anti : forall x y e, 0 < x -> x <= y -> 0 < e -> Rpower y (- e) <= Rpower x (- e).
Proof.
  intros x y e P L E. rewrite !Rpower_Ropp. apply Rinv_le_contravar; [unfold Rpower; apply exp_pos|].
  apply Rle_Rpower_l; lra.
Qed.

(** More losses make a hotter core. *)
Theorem C179_losses : forall m c losses losses' ambient r r' hot hot', solid c -> 0 <= losses < losses' ->
  core_temperature m c losses ambient = Ok r -> core_temperature m c losses' ambient = Ok r' ->
  maximum r = Some hot -> maximum r' = Some hot' -> hot < hot'.
Proof.
  intros m c losses losses' ambient r r' hot hot' S L H H' M M'.
  unfold core_temperature in *. rewrite rise_expected in H, H' by (try exact S; lra). cbn [bind] in *.
  injection H as <-. injection H' as <-. cbn in M, M'. injection M as <-. injection M' as <-.
  apply Rplus_lt_compat_l. pose proof (solid_surface c S) as Su.
  assert (RP : forall x y, 0 < Rpower x y) by (intros; unfold Rpower; apply exp_pos).
  assert (Res : forall k, 0 < k -> losses * k < losses' * k) by (intros; apply Rmult_lt_compat_r; lra).
  assert (Pow : forall e, 0 < e ->
    (if Rlt_dec 0 losses then Rpower (1 / 10 * losses / surface c) e else 0) <
    (if Rlt_dec 0 losses' then Rpower (1 / 10 * losses' / surface c) e else 0)).
  { intros e E. destruct (Rlt_dec 0 losses'); [|lra]. destruct (Rlt_dec 0 losses); [|apply RP].
    apply Rpower_mono; [apply Rdiv_lt_0_compat; lra| |exact E].
    unfold Rdiv. apply Rmult_lt_compat_r; [apply Rinv_0_lt_compat, Su|lra]. }
  unfold expected. destruct m; cbn [resistance exponent].
  - apply Pow. lra.
  - apply Res. apply Rmult_lt_0_compat; [lra|apply RP].
  - apply Res. apply Rdiv_lt_0_compat; [lra|]. apply sqrt_lt_R0. destruct S as (V & _). lra.
  - apply Res. apply Rmult_lt_0_compat; [lra|apply RP].
  - apply Pow. lra.
Qed.

(** A larger core is no hotter. *)
Theorem C179_larger : forall m c c' losses ambient r r' hot hot', solid c -> solid c' -> larger c c' -> 0 <= losses ->
  core_temperature m c losses ambient = Ok r -> core_temperature m c' losses ambient = Ok r' ->
  maximum r = Some hot -> maximum r' = Some hot' -> hot' <= hot.
Proof.
  intros m c c' losses ambient r r' hot hot' S S' G L H H' M M'.
  unfold core_temperature in *. rewrite rise_expected in H by assumption. rewrite rise_expected in H' by assumption.
  cbn [bind] in *.
  injection H as <-. injection H' as <-. cbn in M, M'. injection M as <-. injection M' as <-.
  apply Rplus_le_compat_l.
  pose proof (solid_surface c S) as Su. pose proof (solid_surface c' S') as Su'.
  assert (Sg : surface c <= surface c').
  { destruct S as (_ & W & Hh & D & _). destruct G as (_ & GW & GH & GD & _). unfold surface.
    assert (depth c * height c <= depth c' * height c') by (apply Rmult_le_compat; lra).
    assert (height c * width c <= height c' * width c') by (apply Rmult_le_compat; lra).
    assert (width c * depth c <= width c' * depth c') by (apply Rmult_le_compat; lra). lra. }
  assert (Res : forall k k', k' <= k -> losses * k' <= losses * k) by (intros; apply Rmult_le_compat_l; lra).
  assert (Pow : forall e, 0 < e ->
    (if Rlt_dec 0 losses then Rpower (1 / 10 * losses / surface c') e else 0) <=
    (if Rlt_dec 0 losses then Rpower (1 / 10 * losses / surface c) e else 0)).
  { intros e E. destruct (Rlt_dec 0 losses); [|lra].
    apply Rle_Rpower_l; [lra|]. split; [apply Rdiv_lt_0_compat; lra|].
    unfold Rdiv. apply Rmult_le_compat_l; [lra|]. apply Rinv_le_contravar; assumption. }
  destruct S as (V & W & Hh & D & (a & Ha & Pa) & (w & Hw & Pw)).
  destruct S' as (V' & W' & Hh' & D' & (a' & Ha' & Pa') & (w' & Hw' & Pw')).
  destruct G as (GV & GW & GH & GD & GA & GWi).
  unfold expected. destruct m; cbn [resistance exponent].
  - apply Pow. lra.
  - apply Res. apply Rmult_le_compat_l; [lra|]. apply Rpower_anti; lra.
  - apply Res. unfold Rdiv. apply Rmult_le_compat_l; [lra|]. apply Rinv_le_contravar.
    + apply sqrt_lt_R0. lra.
    + apply sqrt_le_1_alt. lra.
  - apply Res. apply Rmult_le_compat_l; [lra|]. specialize (GA a a' Ha Ha'). specialize (GWi w w' Hw Hw').
    destruct (columns c) as [|x cs]; [discriminate|]. cbn in Ha. injection Ha as ->.
    destruct (columns c') as [|x' cs']; [discriminate|]. cbn in Ha'. injection Ha' as ->.
    destruct (windows c) as [|[y|] ws]; [discriminate| |discriminate]. cbn in Hw. injection Hw as ->.
    destruct (windows c') as [|[y'|] ws']; [discriminate| |discriminate]. cbn in Hw'. injection Hw' as ->.
    cbn [hd].
    assert (0 < a * w) by (apply Rmult_lt_0_compat; assumption).
    assert (a * w <= a' * w') by (apply Rmult_le_compat; lra).
    apply Rpower_anti; lra.
  - apply Pow. lra.
Qed.

(** The two models of the surface differ in the exponent alone: Amidon's is the
    hotter exactly above 1 mW per square centimetre. *)
Theorem C179_surface_models : forall c losses ambient r r' hot hot', solid c -> 0 < losses ->
  core_temperature Kazimierczuk c losses ambient = Ok r -> core_temperature Amidon c losses ambient = Ok r' ->
  maximum r = Some hot -> maximum r' = Some hot' ->
  (hot < hot' <-> surface c * 10000 < losses * 1000).
Proof.
  intros c losses ambient r r' hot hot' S L H H' M M'.
  unfold core_temperature in *. rewrite rise_expected in H, H' by (try exact S; lra). cbn [bind] in *.
  injection H as <-. injection H' as <-. cbn in M, M'. injection M as <-. injection M' as <-.
  pose proof (solid_surface c S) as Su.
  unfold expected. cbn [resistance exponent]. destruct (Rlt_dec 0 losses); [|lra].
  set (x := 1 / 10 * losses / surface c).
  assert (Px : 0 < x) by (apply Rdiv_lt_0_compat; lra).
  assert (Ex : x * surface c = 1 / 10 * losses) by (unfold x; field; lra).
  clearbody x.
  assert (C : 1 < x <-> surface c * 10000 < losses * 1000).
  { split; intros G.
    - assert (1 * surface c < x * surface c) by (apply Rmult_lt_compat_r; lra). lra.
    - apply Rnot_le_lt. intros Q. assert (x * surface c <= 1 * surface c) by (apply Rmult_le_compat_r; lra). lra. }
  rewrite <- C. split; intros G.
  - apply Rnot_le_lt. intros Q.
    assert (ln x <= 0).
    { destruct Q as [Q | ->]; [|rewrite ln_1; lra]. apply Rlt_le. rewrite <- ln_1. apply ln_increasing; lra. }
    assert (Rpower x (833 / 1000) <= Rpower x (826 / 1000)).
    { unfold Rpower. destruct (Req_dec (ln x) 0) as [-> | NZ]; [rewrite !Rmult_0_r; lra|].
      apply Rlt_le, exp_increasing. nra. }
    lra.
  - assert (Rpower x (826 / 1000) < Rpower x (833 / 1000)) by (apply Rpower_lt; lra). lra.
Qed.

(** One milliwatt per square centimetre heats by one degree in both, and scaling
    the losses scales the rise by the power 0.826 or 0.833 of the scale. *)
Theorem C179_surface_law : forall m e c losses k ambient r, solid c ->
  (m = Kazimierczuk /\ e = 826 / 1000) \/ (m = Amidon /\ e = 833 / 1000) ->
  0 < k -> losses * 1000 = k * (2 * (depth c * height c + height c * width c + width c * depth c) * 10000) ->
  core_temperature m c losses ambient = Ok r ->
  maximum r = Some (ambient + Rpower k e).
Proof.
  intros m e c losses k ambient r S E K L H. pose proof (solid_surface c S) as Su.
  assert (L' : losses = k * surface c * 10) by (unfold surface; lra).
  assert (P : 0 < losses).
  { rewrite L'. assert (0 < k * surface c) by (apply Rmult_lt_0_compat; assumption). lra. }
  unfold core_temperature in H. rewrite rise_expected in H by (try exact S; lra). cbn [bind] in H.
  injection H as <-. cbn [maximum fadd fmap2]. do 2 f_equal.
  assert (X : 1 / 10 * losses / surface c = k) by (rewrite L'; field; lra).
  unfold expected. destruct E as [(-> & ->) | (-> & ->)]; cbn [resistance exponent]; rewrite X;
    (destruct (Rlt_dec 0 losses); [reflexivity|lra]).
Qed.

(** Full claim: losses of any sign, and every core, give a finite temperature.
    False: negative losses raise a negative number to a broken power in the two
    models of the surface, and give a temperature below the ambient in the
    others. *)
Theorem C179_negative_refuted : forall c losses ambient, solid c -> losses < 0 ->
  (forall m, m = Kazimierczuk \/ m = Amidon -> exists r, core_temperature m c losses ambient = Ok r /\ maximum r = None) /\
  (forall m, m = Maniktala \/ m = Tdk -> exists r hot,
     core_temperature m c losses ambient = Ok r /\ maximum r = Some hot /\ hot < ambient).
Proof.
  intros c losses ambient S L. pose proof (solid_surface c S) as Su.
  assert (Int : forall p, (0 < p < 1000)%Z -> IZR (Int_part (IZR p / 1000)) <> IZR p / 1000).
  { intros p P E. assert (IZR (Int_part (IZR p / 1000)) * 1000 = IZR p) by (rewrite E; field).
    rewrite <- mult_IZR in H. apply eq_IZR in H. lia. }
  assert (Neg : forall num den p, num < 0 -> 0 < den -> (0 < p < 1000)%Z ->
     fpow (fdiv (Some num) (Some den)) (IZR p / 1000) = None).
  { intros num den p N D P. unfold fdiv. destruct (Req_EM_T den 0); [lra|].
    unfold fpow, cpow. assert (num / den < 0).
    { assert (0 < - num / den) by (apply Rdiv_lt_0_compat; lra). unfold Rdiv in *. lra. }
    destruct (Rlt_dec 0 (num / den)); [lra|]. destruct (Req_EM_T (num / den) 0); [lra|].
    destruct (Req_EM_T (IZR (Int_part (IZR p / 1000))) (IZR p / 1000)); [|reflexivity].
    exfalso. now apply (Int p P). }
  assert (RP : forall x y, 0 < Rpower x y) by (intros; unfold Rpower; apply exp_pos).
  assert (Lt : forall k, 0 < k -> losses * k < 0).
  { intros k K. assert (losses * k < 0 * k) by (apply Rmult_lt_compat_r; lra). lra. }
  split.
  - intros m [-> | ->]; unfold core_temperature; cbn [temperature_rise].
    + rewrite (Neg (1 / 10 * losses) (surface c) 826%Z) by (try lia; lra). cbn. eexists. split; reflexivity.
    + rewrite (Neg (losses * 1000) (surface c * 10000) 833%Z) by (try lia; lra). cbn. eexists. split; reflexivity.
  - destruct S as (V & _). intros m [-> | ->]; unfold core_temperature; cbn [temperature_rise].
    + unfold cpow. destruct (Rlt_dec 0 (volume c * 1000000)); [|lra]. cbn.
      eexists. eexists. split; [reflexivity|]. split; [reflexivity|].
      specialize (Lt (53 * Rpower (volume c * 1000000) (- (54 / 100)))
        ltac:(apply Rmult_lt_0_compat; [lra|apply RP])). lra.
    + unfold over_root. destruct (Rlt_dec 0 (volume c * 1000000)); [|lra]. cbn.
      eexists. eexists. split; [reflexivity|]. split; [reflexivity|].
      specialize (Lt (1 / sqrt (volume c * 1000000))
        ltac:(apply Rdiv_lt_0_compat; [lra|apply sqrt_lt_R0; lra])). lra.
Qed.

(** A core without winding windows (a closed bead, say) is undefined behaviour in
    Dixon's model alone. *)
Theorem C179_no_window_refuted : forall c losses ambient, columns c <> [] -> windows c = [] ->
  (exists w, core_temperature Dixon c losses ambient = UB w) /\
  forall m, m <> Dixon -> exists r, core_temperature m c losses ambient = Ok r.
Proof.
  intros c losses ambient C W. split.
  - unfold core_temperature, temperature_rise. rewrite W. destruct (columns c); [congruence|]. eexists. reflexivity.
  - intros m N. destruct m; try (eexists; reflexivity). congruence.
Qed.

(** A one litre cube of 1 kW: 10 cm of side, one column, one window. *)
Definition cube : body :=
  {| volume := 1 / 1000; width := 1 / 10; height := 1 / 10; depth := 1 / 10;
     columns := [1 / 1000]; windows := [Some (1 / 1000)] |}.
Example C179_witness : solid cube /\ surface cube = 6 / 100 /\
  larger cube {| volume := 2 / 1000; width := 2 / 10; height := 1 / 10; depth := 1 / 10;
                 columns := [1 / 1000]; windows := [Some (1 / 500)] |}.
Proof.
  unfold solid, larger, surface, cube; cbn. repeat split; try lra.
  - eexists. split; [reflexivity|lra].
  - eexists. split; [reflexivity|lra].
  - intros ? ? E E'. injection E as <-. injection E' as <-. lra.
  - intros ? ? E E'. injection E as <-. injection E' as <-. lra.
Qed.

(** Neither can it do without columns. *)
Theorem C179_no_column_refuted : forall c losses ambient, columns c = [] ->
  exists w, core_temperature Dixon c losses ambient = UB w.
Proof. intros c losses ambient E. unfold core_temperature, temperature_rise. rewrite E. eexists. reflexivity. Qed.
(** TDK's: in a core of 100 cubic centimetres the resistance is 0.1 K/W. *)
Theorem C179_tdk : forall c losses ambient, volume c = 1 / 10000 ->
  exists k, core_temperature Tdk c losses ambient =
    Ok {| initial := ambient; maximum := Some (ambient + losses * (1 / 10)); bulk := k |}.
Proof.
  intros c losses ambient V. unfold core_temperature, temperature_rise, over_root. rewrite V.
  destruct (Rlt_dec 0 (1 / 10000 * 1000000)); [|lra].
  replace (1 / 10000 * 1000000) with (10 * 10) by lra. rewrite sqrt_square by lra.
  eexists. reflexivity.
Qed.

(** Maniktala's and Dixon's: in a core of 1 cubic centimetre, and of an area
    product of 1 cm^4, the resistances are 53 and 23 K/W. *)
Theorem C179_unit_resistance : forall c losses ambient, 0 < losses -> solid c ->
  volume c = 1 / 1000000 -> hd 0 (columns c) * match hd None (windows c) with Some w => w | None => 0 end = 1 / 100000000 ->
  (exists hot, core_temperature Maniktala c losses ambient = Ok {| initial := ambient; maximum := Some hot; bulk := Some 53 |}) /\
  (exists hot, core_temperature Dixon c losses ambient = Ok {| initial := ambient; maximum := Some hot; bulk := Some 23 |}).
Proof.
  intros c losses ambient L S V A.
  assert (One : forall y, Rpower 1 y = 1) by (intros; unfold Rpower; rewrite ln_1, Rmult_0_r; apply exp_0).
  split.
  - unfold core_temperature. rewrite rise_expected by (try exact S; lra). unfold expected, resistance.
    rewrite V. replace (1 / 1000000 * 1000000) with 1 by lra. rewrite One. cbn.
    destruct (Rlt_dec 0 losses); [|lra]. unfold fdiv. destruct (Req_EM_T losses 0); [lra|].
    eexists. do 2 f_equal. f_equal. field. lra.
  - unfold core_temperature. rewrite rise_expected by (try exact S; lra). unfold expected, resistance.
    rewrite A. replace (1 / 100000000 * 100000000) with 1 by lra. rewrite One. cbn.
    destruct (Rlt_dec 0 losses); [|lra]. unfold fdiv. destruct (Req_EM_T losses 0); [lra|].
    eexists. do 2 f_equal. f_equal. field. lra.
Qed.

Print Assumptions C179_report.
Print Assumptions C179_ambient.
Print Assumptions C179_losses.
Print Assumptions C179_larger.
Print Assumptions C179_surface_models.
Print Assumptions C179_surface_law.
Print Assumptions C179_negative_refuted.
Print Assumptions C179_no_window_refuted.
Print Assumptions C179_tdk.
Print Assumptions C179_unit_resistance.
Print Assumptions C179_no_column_refuted.
