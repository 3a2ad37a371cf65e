(** * Turns from voltages, joint gap and turns (C116), inductance under bias (C117) *)
From Coq Require Import Reals List Lra Lia ZArith Psatz.
From Verif Require Import Base GapModel GapProofs SizingModel SizingProofs.
Import ListNotations.
Local Open Scope R_scope.

(** ** C116 *)

Lemma ceiling_least : forall x m, 0 < x -> (1 <= m)%nat -> (x <= INR m <-> (Nat.max 1 (nceil x) <= m)%nat).
Proof.
  intros x m X M. split; intro H.
  - apply Nat.max_lub; [exact M | apply nceil_le; assumption].
  - destruct (nceil_bounds x X) as (A & _). apply Rle_trans with (1 := A), le_INR. lia.
Qed.

(** The turns for a swing of volt-seconds are the least with which the density
    reported for them is within the limit. *)
Theorem C116_volt_seconds : forall effective_area volt_seconds density, 0 < effective_area -> 0 < volt_seconds -> 0 < density ->
  let n := turns_from_volt_seconds effective_area volt_seconds density in
  (1 <= n)%nat /\ density_from_volt_seconds effective_area (INR n) volt_seconds <= density /\
  forall m, (1 <= m)%nat -> density_from_volt_seconds effective_area (INR m) volt_seconds <= density -> (n <= m)%nat.
Proof.
  intros ea vs b A V B n.
  assert (EN : n = Nat.max 1 (nceil (vs / (b * ea)))).
  { unfold n, turns_from_volt_seconds. destruct (Rle_dec ea 0); [lra|]. destruct (Rle_dec b 0); [lra|].
    destruct (Rle_dec vs 0); [lra|]. reflexivity. }
  assert (X : 0 < vs / (b * ea)) by (apply Rdiv_pos; [exact V | apply Rmult_lt_0_compat; assumption]).
  assert (ITF : forall m, (1 <= m)%nat -> (density_from_volt_seconds ea (INR m) vs <= b <-> (n <= m)%nat)).
  { intros m M. rewrite EN, <- (ceiling_least _ m X M). pose proof (INR_pos m M) as P. unfold density_from_volt_seconds.
    destruct (Rle_dec (INR m) 0); [lra|]. destruct (Rle_dec ea 0); [lra|]. destruct (Rle_dec vs 0); [lra|].
    assert (E : vs / (INR m * ea) = vs / (b * ea) * b / INR m) by (field; lra). rewrite E. set (x := vs / (b * ea)) in *.
    split; intro H.
    - apply Rmult_le_compat_r with (r := INR m) in H; [|lra]. replace (x * b / INR m * INR m) with (b * x) in H by (field; lra). nra.
    - apply Rmult_le_reg_r with (INR m); [lra|]. replace (x * b / INR m * INR m) with (b * x) by (field; lra). nra. }
  assert (N1 : (1 <= n)%nat) by (rewrite EN; lia). split; [exact N1|]. split; [apply ITF; [exact N1 | lia]|].
  intros m M H. apply ITF; assumption.
Qed.

(** The same for a sinusoidal voltage. *)
Theorem C116_voltage : forall effective_area voltage frequency density, 0 < effective_area -> 0 < voltage -> 0 < frequency -> 0 < density ->
  let n := turns_from_voltage effective_area voltage frequency density in
  (1 <= n)%nat /\ density_from_voltage effective_area (INR n) voltage frequency <= density /\
  forall m, (1 <= m)%nat -> density_from_voltage effective_area (INR m) voltage frequency <= density -> (n <= m)%nat.
Proof.
  intros ea v fr b A V F B n. pose proof PI_RGT_0 as PP. assert (W : 0 < 2 * PI * fr) by (apply Rmult_lt_0_compat; lra).
  assert (EN : n = Nat.max 1 (nceil (v / (ea * (2 * PI * fr) * b)))).
  { unfold n, turns_from_voltage. destruct (Rle_dec ea 0); [lra|]. destruct (Rle_dec (2 * PI * fr) 0); [lra|].
    destruct (Rle_dec b 0); [lra|]. reflexivity. }
  set (w := 2 * PI * fr) in *.
  assert (X : 0 < v / (ea * w * b)) by (apply Rdiv_pos; [exact V | exact (Rmult_lt_0_compat _ _ (Rmult_lt_0_compat _ _ A W) B)]).
  assert (ITF : forall m, (1 <= m)%nat -> (density_from_voltage ea (INR m) v fr <= b <-> (n <= m)%nat)).
  { intros m M. rewrite EN, <- (ceiling_least _ m X M). pose proof (INR_pos m M) as P. unfold density_from_voltage. fold w.
    destruct (Rle_dec (INR m) 0); [lra|]. destruct (Rle_dec ea 0); [lra|]. destruct (Rle_dec w 0); [lra|].
    assert (E : v / (INR m * ea * w) = v / (ea * w * b) * b / INR m) by (field; lra). rewrite E. set (x := v / (ea * w * b)) in *.
    split; intro H.
    - apply Rmult_le_compat_r with (r := INR m) in H; [|lra]. replace (x * b / INR m * INR m) with (b * x) in H by (field; lra). nra.
    - apply Rmult_le_reg_r with (INR m); [lra|]. replace (x * b / INR m * INR m) with (b * x) by (field; lra). nra. }
  assert (N1 : (1 <= n)%nat) by (rewrite EN; lia). split; [exact N1|]. split; [apply ITF; [exact N1 | lia]|].
  intros m M H. apply ITF; assumption.
Qed.

(** Both densities are those of Faraday's law: halving the turns doubles them. *)
Theorem C116_faraday : forall effective_area turns voltage frequency volt_seconds,
  0 < effective_area -> 0 < turns -> 0 < frequency -> 0 < volt_seconds ->
  density_from_voltage effective_area turns voltage frequency * (turns * effective_area * (2 * PI * frequency)) = voltage /\
  density_from_volt_seconds effective_area turns volt_seconds * (turns * effective_area) = volt_seconds.
Proof.
  intros ea t v fr vs A T F V. pose proof PI_RGT_0. unfold density_from_voltage, density_from_volt_seconds.
  assert (W : 0 < 2 * PI * fr) by (apply Rmult_lt_0_compat; lra). set (w := 2 * PI * fr) in *.
  destruct (Rle_dec t 0); [lra|]. destruct (Rle_dec ea 0); [lra|]. destruct (Rle_dec w 0); [lra|]. destruct (Rle_dec vs 0); [lra|].
  split; field; lra.
Qed.

(** The two functions answer differently when there is nothing to size: no turns
    at all for no volt-seconds, one for no voltage. *)
Theorem C116_nothing_refuted : forall effective_area density frequency, 0 < effective_area -> 0 < density -> 0 < frequency ->
  turns_from_volt_seconds effective_area 0 density = 0%nat /\ turns_from_voltage effective_area 0 frequency density = 1%nat.
Proof.
  intros ea b fr A B F. pose proof PI_RGT_0. unfold turns_from_volt_seconds, turns_from_voltage.
  assert (W : 0 < 2 * PI * fr) by (apply Rmult_lt_0_compat; lra). set (w := 2 * PI * fr) in *.
  destruct (Rle_dec ea 0); [lra|]. destruct (Rle_dec b 0); [lra|]. destruct (Rle_dec w 0); [lra|].
  destruct (Rle_dec 0 0); [|lra]. split; [reflexivity|]. replace (0 / (ea * w * b)) with 0 by (field; lra).
  unfold nceil. replace (- 0) with 0 by ring. replace (Int_part 0) with 0%Z; [reflexivity|].
  destruct (base_Int_part 0) as (P & Q). apply Z.le_antisymm.
  - assert (-1 < Int_part 0)%Z by (apply lt_IZR; lra). lia.
  - apply le_IZR. exact P.
Qed.

(** *** Gap and turns together *)

(** rounding up from at least the least number of turns never overshoots *)
Lemma rounded_product : forall n y, (1 <= n)%nat -> INR n <= y -> INR n * INR (Nat.max 1 (nround y)) <= y * y.
Proof.
  intros n y N H. pose proof (INR_pos n N) as P. assert (NR : (n <= nround y)%nat) by (apply nround_ge; lra).
  rewrite Nat.max_r by lia. destruct (nround_bounds y ltac:(lra)) as (A & B).
  destruct (Nat.eq_dec (nround y) n) as [-> |NE]; [nra|].
  assert (INR n + 1 <= INR (nround y)).
  { assert (L : (n + 1 <= nround y)%nat) by lia. apply le_INR in L. rewrite plus_INR in L. simpl in L. lra. }
  assert (Q : INR n <= y - 1 / 2) by lra. assert (INR n * INR (nround y) <= (y - 1 / 2) * (y + 1 / 2)); [|nra].
  apply Rmult_le_compat; lra.
Qed.

(** the density of the rounded turns, when the reluctance is at least the one
    that the least turns need *)
Lemma rounded_density : forall desired current density ea n total, 0 < desired -> 0 < current -> 0 < density -> 0 < ea -> (1 <= n)%nat ->
  desired * current / (density * ea) <= INR n -> INR n * INR n / desired <= total ->
  flux_density_peak (INR (Nat.max 1 (nround (sqrt (desired * total))))) current total ea <= density.
Proof.
  intros desired current density ea n total D I B A N X T. pose proof (INR_pos n N) as P.
  assert (NP : 0 < INR n * INR n / desired) by (apply Rdiv_pos; [nra | exact D]).
  assert (TP : 0 < desired * total) by (apply Rmult_lt_0_compat; lra).
  assert (T' : INR n * INR n <= desired * total).
  { apply Rmult_le_compat_l with (r := desired) in T; [|lra]. replace (desired * (INR n * INR n / desired)) with (INR n * INR n) in T by (field; lra). exact T. }
  assert (YN : INR n <= sqrt (desired * total)).
  { replace (INR n) with (sqrt (INR n * INR n)) by (apply sqrt_square; lra). apply sqrt_le_1_alt. exact T'. }
  pose proof (rounded_product n _ N YN) as Q. rewrite sqrt_sqrt in Q by lra.
  set (N' := INR (Nat.max 1 (nround (sqrt (desired * total))))) in *. unfold flux_density_peak.
  assert (N'P : 0 < N') by (unfold N'; pose proof (INR_pos (Nat.max 1 (nround (sqrt (desired * total)))) ltac:(lia)); lra).
  apply Rmult_le_compat_r with (r := density * ea) in X; [|apply Rlt_le, Rmult_lt_0_compat; assumption].
  replace (desired * current / (density * ea) * (density * ea)) with (desired * current) in X by (field; lra).
  assert (TT : 0 < total) by lra.
  apply Rmult_le_reg_r with (total * ea); [apply Rmult_lt_0_compat; assumption|].
  replace (N' * current / total / ea * (total * ea)) with (N' * current) by (field; lra).
  apply Rmult_le_reg_l with desired; [exact D|].
  replace (desired * (N' * current)) with (N' * (desired * current)) by ring.
  apply Rle_trans with (N' * (INR n * (density * ea))); [apply Rmult_le_compat_l; lra|].
  replace (N' * (INR n * (density * ea))) with ((INR n * N') * (density * ea)) by ring.
  replace (desired * (density * (total * ea))) with ((desired * total) * (density * ea)) by ring.
  apply Rmult_le_compat_r; [apply Rlt_le, Rmult_lt_0_compat; assumption | exact Q].
Qed.

(** The fewest turns that keep the inductance from saturating the core. *)
Definition fewest (desired current density effective_area : R) (n : nat) : Prop :=
  (1 <= n)%nat /\ desired * current / (INR n * effective_area) <= density /\
  forall m, (1 <= m)%nat -> desired * current / (INR m * effective_area) <= density -> (n <= m)%nat.

Lemma fewest_ceiling : forall desired current density ea, 0 < desired -> 0 < current -> 0 < density -> 0 < ea ->
  fewest desired current density ea (Nat.max 1 (nceil (desired * current / (density * ea)))).
Proof.
  intros desired current density ea D I B A.
  assert (X : 0 < desired * current / (density * ea)) by (apply Rdiv_pos; apply Rmult_lt_0_compat; assumption).
  assert (ITF : forall m, (1 <= m)%nat -> (desired * current / (INR m * ea) <= density <-> desired * current / (density * ea) <= INR m)).
  { intros m M. pose proof (INR_pos m M) as P. set (x := desired * current / (density * ea)) in *.
    replace (desired * current / (INR m * ea)) with (x * density / INR m) by (unfold x; field; lra). split; intro H.
    - apply Rmult_le_compat_r with (r := INR m) in H; [|lra]. replace (x * density / INR m * INR m) with (density * x) in H by (field; lra). nra.
    - apply Rmult_le_reg_r with (INR m); [lra|]. replace (x * density / INR m * INR m) with (density * x) by (field; lra). nra. }
  split; [lia|]. split; [apply ITF; [lia|]; apply ceiling_least; [exact X | lia | lia]|].
  intros m M H. apply ceiling_least; [exact X | exact M|]. apply ITF; assumption.
Qed.
Lemma fewest_unique : forall desired current density ea n m, fewest desired current density ea n -> fewest desired current density ea m -> n = m.
Proof. intros desired current density ea n m (N & A & B) (M & C & D). apply Nat.le_antisymm; [apply B; assumption | apply D; assumption]. Qed.

(** An ungapped answer keeps the core from saturating. *)
Theorem C116_ungapped : forall desired current density effective_area core_rel gap_area column_width rel n,
  0 < desired -> 0 < current -> 0 < density -> 0 < effective_area -> 0 < gap_area ->
  gap_and_turns desired current density effective_area core_rel gap_area column_width rel = Some (0, n) ->
  flux_density_peak (INR n) current core_rel effective_area <= density.
Proof.
  intros desired current density ea core_rel ga cw rel n D I B A G H. pose proof mu0_pos as M. pose proof residual_pos as RP.
  unfold gap_and_turns in H.
  assert (X : 0 < desired * current / (density * ea)) by (apply Rdiv_pos; apply Rmult_lt_0_compat; assumption).
  set (l := Nat.max 1 (nceil (desired * current / (density * ea)))) in *.
  assert (L1 : (1 <= l)%nat) by (unfold l; lia).
  destruct (Rle_dec (INR l * INR l / desired - core_rel) 0) as [Z|Z].
  - injection H as <-. apply rounded_density with (n := l); try assumption; [|lra].
    apply (ceiling_least _ l X L1). unfold l. lia.
  - exfalso. destruct (Rlt_dec _ _) as [L|L] in H; [discriminate|].
    set (g := Rmax residual ((INR l * INR l / desired - core_rel) * mu0 * ga)) in *.
    assert (GP : residual <= g) by apply Rmax_l.
    destruct (Rlt_dec (density * (105 / 100)) _) as [Y|Y] in H; [|injection H as H _; lra].
    destruct (Rlt_dec 0 _) as [Q|Q] in H; injection H as H _; [|lra].
    assert (CW : residual <= Rmin (4 / 10 * cw) (Rmax residual ((INR (nceil (desired * current / (density * ea))) * INR (nceil (desired * current / (density * ea))) / desired - core_rel) * mu0 * ga)) \/ 4 / 10 * cw <= 0).
    { unfold Rmin. destruct (Rle_dec _ _) as [W|W]; [|left; apply Rmax_l]. destruct (Rle_dec (4 / 10 * cw) 0); [right; assumption|].
      exfalso. assert (PG : 0 < (INR l * INR l / desired - core_rel) * mu0 * ga) by (apply Rmult_lt_0_compat; [apply Rmult_lt_0_compat|]; lra).
      unfold Rmin in H. destruct (Rle_dec (4 / 10 * cw) _) in H; [lra | contradiction]. }
    destruct CW as [CW|CW]; [lra|].
    assert (PG : 0 < (INR l * INR l / desired - core_rel) * mu0 * ga) by (apply Rmult_lt_0_compat; [apply Rmult_lt_0_compat|]; lra). lra.
Qed.

(** A gapped answer whose reluctance is at least the one that the fewest turns
    need keeps the core from saturating. *)
Theorem C116_gapped : forall desired current density effective_area core_rel gap_area column_width rel g n fewest_turns,
  0 < desired -> 0 < current -> 0 < density -> 0 < effective_area -> 0 < gap_area -> 0 < g ->
  gap_and_turns desired current density effective_area core_rel gap_area column_width rel = Some (g, n) ->
  fewest desired current density effective_area fewest_turns -> INR fewest_turns ^ 2 / desired <= rel g ->
  flux_density_peak (INR n) current (rel g) effective_area <= density.
Proof.
  intros desired current density ea core_rel ga cw rel g n ft D I B A G GP H FT RL. pose proof mu0_pos as M. pose proof residual_pos as RP.
  unfold gap_and_turns in H.
  assert (X : 0 < desired * current / (density * ea)) by (apply Rdiv_pos; apply Rmult_lt_0_compat; assumption).
  assert (EL := fewest_unique _ _ _ _ _ _ FT (fewest_ceiling desired current density ea D I B A)).
  set (l := Nat.max 1 (nceil (desired * current / (density * ea)))) in *. subst ft.
  assert (L1 : (1 <= l)%nat) by (unfold l; lia). assert (CL : nceil (desired * current / (density * ea)) = l).
  { unfold l. rewrite Nat.max_r; [reflexivity|]. apply INR_le. simpl. destruct (nceil_bounds _ X) as (C1 & _).
    assert (0 < INR (nceil (desired * current / (density * ea)))) by lra. apply (INR_pos _). apply INR_lt. simpl. exact H0. }
  rewrite CL in H.
  assert (RL' : INR l * INR l / desired <= rel g) by (replace (INR l * INR l) with (INR l ^ 2) by ring; exact RL).
  assert (XL : desired * current / (density * ea) <= INR l) by (apply (ceiling_least _ l X L1); unfold l; lia).
  destruct (Rle_dec (INR l * INR l / desired - core_rel) 0) as [Z|Z]; [injection H as <- _; lra|].
  destruct (Rlt_dec _ _) as [L|L] in H; [discriminate|].
  set (g0 := Rmax residual ((INR l * INR l / desired - core_rel) * mu0 * ga)) in *.
  destruct (Rlt_dec (density * (105 / 100)) _) as [Y|Y] in H.
  - destruct (Rlt_dec 0 _) as [Q|Q] in H; injection H as HG HN; subst n.
    + unfold flux_density_peak. pose proof (INR_pos l L1).
      assert (TP : 0 < INR l * INR l / desired) by (apply Rdiv_pos; [nra | exact D]).
      assert (R0 : 0 < rel g) by lra.
      apply Rmult_le_reg_r with (rel g * ea); [apply Rmult_lt_0_compat; assumption|].
      replace (INR l * current / rel g / ea * (rel g * ea)) with (INR l * current) by (field; lra).
      apply Rle_trans with (density * (INR l * INR l / desired * ea)).
      * apply Rmult_le_compat_r with (r := density * ea) in XL; [|apply Rlt_le, Rmult_lt_0_compat; assumption].
        replace (desired * current / (density * ea) * (density * ea)) with (desired * current) in XL by (field; lra).
        apply Rmult_le_reg_l with desired; [exact D|].
        replace (desired * (density * (INR l * INR l / desired * ea))) with (INR l * (INR l * (density * ea))) by (field; lra).
        replace (desired * (INR l * current)) with (INR l * (desired * current)) by ring. apply Rmult_le_compat_l; lra.
      * apply Rmult_le_compat_l; [lra|]. apply Rmult_le_compat_r; lra.
    + lra.
  - injection H as <- <-. apply rounded_density with (n := l); assumption.
Qed.

(** Without fringing the gap and the fewest turns give the inductance exactly,
    when the gap is not the residual one. *)
Theorem C116_without_fringing : forall desired current density effective_area core_rel gap_area column_width g n fewest_turns,
  0 < desired -> 0 < current -> 0 < density -> 0 < effective_area -> 0 < gap_area -> residual < g ->
  let rel g := core_rel + g / (mu0 * gap_area) in
  gap_and_turns desired current density effective_area core_rel gap_area column_width rel = Some (g, n) ->
  fewest desired current density effective_area fewest_turns ->
  n = fewest_turns /\ INR n ^ 2 / rel g = desired /\ g <= 4 / 10 * column_width.
Proof.
  intros desired current density ea core_rel ga cw g n ft D I B A G GP rel H FT. pose proof mu0_pos as M. pose proof residual_pos as RP.
  pose proof H as H0. unfold gap_and_turns in H.
  assert (X : 0 < desired * current / (density * ea)) by (apply Rdiv_pos; apply Rmult_lt_0_compat; assumption).
  assert (EL := fewest_unique _ _ _ _ _ _ FT (fewest_ceiling desired current density ea D I B A)).
  set (l := Nat.max 1 (nceil (desired * current / (density * ea)))) in *. subst ft.
  assert (L1 : (1 <= l)%nat) by (unfold l; lia). pose proof (INR_pos l L1) as LP.
  assert (CL : nceil (desired * current / (density * ea)) = l).
  { unfold l. rewrite Nat.max_r; [reflexivity|]. apply INR_le. simpl. destruct (nceil_bounds _ X) as (C1 & _).
    assert (P0 : 0 < INR (nceil (desired * current / (density * ea)))) by lra. apply (INR_pos _). apply INR_lt. simpl. exact P0. }
  rewrite CL in H.
  destruct (Rle_dec (INR l * INR l / desired - core_rel) 0) as [Z|Z]; [injection H as <- _; lra|].
  destruct (Rlt_dec _ _) as [L|L] in H; [discriminate|].
  set (need := INR l * INR l / desired - core_rel) in *.
  assert (RE : forall x, x = need * mu0 * ga -> rel x = INR l * INR l / desired).
  { intros x ->. unfold rel, need. field. lra. }
  assert (QQ : INR l * INR l = INR l ^ 2) by ring.
  assert (FIN : forall x, x = need * mu0 * ga -> INR l ^ 2 / rel x = desired).
  { intros x E. rewrite (RE x E), QQ. field. repeat split; try apply pow_nonzero; lra. }
  assert (RT : forall x, x = need * mu0 * ga -> Nat.max 1 (nround (sqrt (desired * rel x))) = l).
  { intros x E. rewrite (RE x E). replace (desired * (INR l * INR l / desired)) with (INR l * INR l) by (field; lra).
    rewrite sqrt_square by lra. rewrite nround_INR. lia. }
  assert (MX : forall x, Rmax residual x = g -> x = g) by (intros x E; unfold Rmax in E; destruct (Rle_dec residual x); lra).
  destruct (Rlt_dec (density * (105 / 100)) _) as [Y|Y] in H.
  - destruct (Rlt_dec 0 _) as [Q|Q] in H; injection H as HG HN; subst n; [|lra].
    assert (E : g = need * mu0 * ga).
    { unfold Rmin in HG. destruct (Rle_dec (4 / 10 * cw) _) as [W|W] in HG; [|symmetry; apply MX, HG].
      unfold Rmax in W. destruct (Rle_dec residual (need * mu0 * ga)); [unfold need in *; lra | lra]. }
    split; [reflexivity|]. split; [apply FIN; exact E | unfold need in *; lra].
  - injection H as HG HN. pose proof (MX _ HG) as E. rewrite HG in HN. assert (HN' := RT g (eq_sym E)). change (Nat.max 1 (nround (sqrt (desired * rel g))) = n) in HN. rewrite HN' in HN. subst n.
    split; [reflexivity|]. split; [apply FIN; symmetry; exact E | lra].
Qed.

(** The core is rejected exactly when the gap that the fewest turns need, without
    fringing, is longer than two fifths of the width of the column. *)
Theorem C116_rejected : forall desired current density effective_area core_rel gap_area column_width rel fewest_turns,
  0 < desired -> 0 < current -> 0 < density -> 0 < effective_area -> 0 < gap_area -> 0 < column_width ->
  fewest desired current density effective_area fewest_turns ->
  (gap_and_turns desired current density effective_area core_rel gap_area column_width rel = None <->
   4 / 10 * column_width < (INR fewest_turns ^ 2 / desired - core_rel) * mu0 * gap_area).
Proof.
  intros desired current density ea core_rel ga cw rel ft D I B A G C FT. pose proof mu0_pos as M.
  assert (EL := fewest_unique _ _ _ _ _ _ FT (fewest_ceiling desired current density ea D I B A)).
  unfold gap_and_turns. rewrite <- EL. replace (INR ft * INR ft) with (INR ft ^ 2) by ring. set (need := INR ft ^ 2 / desired - core_rel).
  destruct (Rle_dec need 0) as [Z|Z].
  - split; [discriminate|]. intro H. exfalso.
    assert (0 <= (- need) * (mu0 * ga)) by (apply Rmult_le_pos; [lra | apply Rlt_le, Rmult_lt_0_compat; assumption]). lra.
  - destruct (Rlt_dec _ _) as [L|L]; [split; [intros _; exact L | reflexivity]|]. split; [|intro H; contradiction].
    destruct (Rlt_dec (density * _) _); [destruct (Rlt_dec 0 _)|]; discriminate.
Qed.

(** When the fringing lowers the reluctance so far that the check fails, the
    correction returns the same gap with no fewer turns, and a density no lower
    than the one that failed. *)
Theorem C116_correction_refuted : forall desired current density effective_area core_rel gap_area column_width rel g fewest_turns,
  0 < desired -> 0 < current -> 0 < density -> 0 < effective_area -> 0 < gap_area ->
  fewest desired current density effective_area fewest_turns ->
  g = (INR fewest_turns ^ 2 / desired - core_rel) * mu0 * gap_area -> residual <= g <= 4 / 10 * column_width ->
  0 < rel g < INR fewest_turns ^ 2 / desired ->
  let turns := Nat.max 1 (nround (sqrt (desired * rel g))) in
  density * (105 / 100) < flux_density_peak (INR turns) current (rel g) effective_area ->
  gap_and_turns desired current density effective_area core_rel gap_area column_width rel = Some (g, fewest_turns) /\
  flux_density_peak (INR turns) current (rel g) effective_area <= flux_density_peak (INR fewest_turns) current (rel g) effective_area.
Proof.
  intros desired current density ea core_rel ga cw rel g ft D I B A G FT EG GB RB turns Y. pose proof mu0_pos as M. pose proof residual_pos as RP.
  assert (X : 0 < desired * current / (density * ea)) by (apply Rdiv_pos; apply Rmult_lt_0_compat; assumption).
  assert (EL := fewest_unique _ _ _ _ _ _ FT (fewest_ceiling desired current density ea D I B A)).
  unfold gap_and_turns. rewrite <- EL. destruct FT as (F1 & _ & _). pose proof (INR_pos ft F1) as LP.
  assert (CL : nceil (desired * current / (density * ea)) = ft).
  { rewrite EL, Nat.max_r; [reflexivity|]. apply INR_le. simpl. destruct (nceil_bounds _ X) as (C1 & _).
    assert (P0 : 0 < INR (nceil (desired * current / (density * ea)))) by lra. apply (INR_pos _). apply INR_lt. simpl. exact P0. }
  rewrite CL. replace (INR ft * INR ft) with (INR ft ^ 2) by ring. set (need := INR ft ^ 2 / desired - core_rel) in *.
  assert (NP : 0 < need).
  { destruct (Rlt_dec 0 need) as [P|P]; [exact P|]. exfalso.
    assert (0 <= (- need) * (mu0 * ga)) by (apply Rmult_le_pos; [lra | apply Rlt_le, Rmult_lt_0_compat; assumption]). lra. }
  split.
  - destruct (Rle_dec need 0); [lra|]. rewrite <- EG. destruct (Rlt_dec (4 / 10 * cw) g); [lra|].
    rewrite (Rmax_right residual g) by lra. fold turns. destruct (Rlt_dec (density * (105 / 100)) _); [|contradiction].
    destruct (Rlt_dec 0 need); [|lra]. rewrite Rmin_right by lra. reflexivity.
  - unfold flux_density_peak. assert (LE : (turns <= ft)%nat).
    { unfold turns. apply Nat.max_lub; [exact F1|]. apply nround_le; [apply sqrt_pos|].
      assert (S : sqrt (desired * rel g) <= INR ft); [|lra].
      replace (INR ft) with (sqrt (INR ft ^ 2)) by (rewrite sqrt_pow2; lra). apply sqrt_le_1_alt.
      apply Rlt_le. apply Rmult_lt_reg_r with (/ desired); [apply Rinv_0_lt_compat; exact D|].
      replace (desired * rel g * / desired) with (rel g) by (field; lra). unfold Rdiv in RB. lra. }
    apply le_INR in LE. unfold Rdiv. apply Rmult_le_compat_r; [apply Rlt_le, Rinv_0_lt_compat; exact A|].
    apply Rmult_le_compat_r; [apply Rlt_le, Rinv_0_lt_compat; lra|]. apply Rmult_le_compat_r; lra.
Qed.

(** ** C117 *)

(** Without an offset, or in a material whose permeability does not see it, the
    inductance and the flux density agree: flux linkage over current. *)
Theorem C117_unbiased : forall mu unbiased rel effective_area turns offset current,
  (forall h, mu h = unbiased) \/ (offset = 0 /\ mu 0 = unbiased) -> 0 < rel unbiased -> 0 < effective_area ->
  biased_inductance mu unbiased rel effective_area turns offset * current
  = turns * (biased_density unbiased rel effective_area turns current * effective_area).
Proof.
  intros mu u rel ea t o c H R0 A. unfold biased_inductance, biased_density.
  assert (E : mu (t * o / rel u / ea / (mu0 * u)) = u).
  { destruct H as [H|(-> & H)]; [apply H|]. replace (t * 0 / rel u / ea / (mu0 * u)) with 0; [exact H | unfold Rdiv; ring]. }
  rewrite E. field. lra.
Qed.

(** Bias never raises the inductance of a material whose permeability falls with it. *)
Theorem C117_bias_lowers : forall mu unbiased rel effective_area turns offset,
  (forall h, 0 < mu h <= unbiased) -> (forall m m', 0 < m -> m <= m' -> 0 < rel m' <= rel m) ->
  biased_inductance mu unbiased rel effective_area turns offset <= turns ^ 2 / rel unbiased.
Proof.
  intros mu u rel ea t o MU RE. unfold biased_inductance. set (h := t * o / rel u / ea / (mu0 * u)).
  destruct (MU h) as (M1 & M2). destruct (RE (mu h) u M1 M2) as (R1 & R2). apply inv_decreases_le; [apply pow2_ge_0 | exact R1 | exact R2].
Qed.

(** A larger offset never means a larger inductance. *)
Theorem C117_bias_monotone : forall mu unbiased rel effective_area turns offset offset',
  0 < unbiased -> 0 < effective_area -> 0 < turns ->
  (forall h h', 0 <= h -> h <= h' -> 0 < mu h' <= mu h) -> (forall m m', 0 < m -> m <= m' -> 0 < rel m' <= rel m) ->
  0 <= offset <= offset' ->
  biased_inductance mu unbiased rel effective_area turns offset' <= biased_inductance mu unbiased rel effective_area turns offset.
Proof.
  intros mu u rel ea t o o' U A T MU RE O. unfold biased_inductance. pose proof mu0_pos as M.
  destruct (RE u u U ltac:(lra)) as (RU & _).
  assert (P : 0 < / (rel u) * / ea * / (mu0 * u)).
  { repeat apply Rmult_lt_0_compat; apply Rinv_0_lt_compat; [exact RU | exact A | apply Rmult_lt_0_compat; assumption]. }
  assert (E : forall x, t * x / rel u / ea / (mu0 * u) = x * (t * (/ (rel u) * / ea * / (mu0 * u)))) by (intro x; unfold Rdiv; ring).
  rewrite !E. assert (Q : 0 < t * (/ (rel u) * / ea * / (mu0 * u))) by (apply Rmult_lt_0_compat; assumption).
  set (q := t * _) in *. assert (H1 : 0 <= o * q) by (apply Rmult_le_pos; lra). assert (H2 : o * q <= o' * q) by (apply Rmult_le_compat_r; lra).
  destruct (MU _ _ H1 H2) as (M1 & M2). destruct (RE _ _ M1 M2) as (R1 & R2). apply inv_decreases_le; [apply pow2_ge_0 | exact R1 | exact R2].
Qed.

(** Driven by a voltage, the swing of the flux density is Faraday's, whatever the
    core and its permeability. *)
Theorem C117_faraday : forall unbiased rel effective_area turns volt_seconds, 0 < rel unbiased -> 0 < effective_area -> 0 < turns -> 0 < volt_seconds ->
  driven_density unbiased rel effective_area turns volt_seconds = volt_seconds / (turns * effective_area) /\
  driven_density unbiased rel effective_area turns volt_seconds = density_from_volt_seconds effective_area turns volt_seconds.
Proof.
  intros u rel ea t vs R0 A T V. unfold driven_density, biased_density, driven_current, density_from_volt_seconds.
  destruct (Rle_dec t 0); [lra|]. destruct (Rle_dec ea 0); [lra|]. destruct (Rle_dec vs 0); [lra|]. split; field; lra.
Qed.

(** Under bias the two outputs contradict each other: the flux density comes from
    the reluctance before the bias, so the flux linkage is more than twice what
    the inductance says, although the loop is meant to run until they are within
    a tenth. *)
Theorem C117_linkage_refuted : exists mu unbiased rel effective_area turns offset current,
  (forall h h', 0 <= h -> h <= h' -> 0 < mu h' <= mu h) /\ mu 0 = unbiased /\ (forall m m', 0 < m -> m <= m' -> 0 < rel m' <= rel m) /\
  0 < effective_area /\ 0 < turns /\ 0 < offset /\ 0 < current /\
  2 * (biased_inductance mu unbiased rel effective_area turns offset * current)
  <= turns * (biased_density unbiased rel effective_area turns current * effective_area).
Proof.
  pose proof mu0_pos as M.
  exists (fun h => 1 / (1 + Rabs h)), 1, (fun m => 1 / m), 1, 1, mu0, 1. split.
  { intros h h' H L. rewrite !Rabs_right by lra. split; [apply Rdiv_pos; lra | apply inv_decreases_le; lra]. }
  split; [rewrite Rabs_R0; field|]. split; [intros m m' P L; split; [apply Rdiv_pos; lra | apply inv_decreases_le; lra]|].
  split; [lra|]. split; [lra|]. split; [exact M|]. split; [lra|]. unfold biased_inductance, biased_density.
  replace (1 * mu0 / (1 / 1) / 1 / (mu0 * 1)) with 1 by (field; lra). rewrite Rabs_R1. lra.
Qed.

(** ** Concrete cases *)
Example C116_witness : 0 < 1 /\ 0 < 3 /\ 0 < 2 /\ density_from_volt_seconds 1 (INR 2) 3 <= 2 /\ 2 < density_from_volt_seconds 1 (INR 1) 3.
Proof.
  unfold density_from_volt_seconds. simpl. destruct (Rle_dec (1 + 1) 0); [lra|]. destruct (Rle_dec 1 0); [lra|].
  destruct (Rle_dec 3 0); [lra|]. lra.
Qed.

(** a gap of a tenth and two turns, with fringing that halves the reluctance of
    the gap: the density is a third too high and is returned *)
Example C116_correction_witness : let rel g := 1 + 5 * g in
  fewest 2 1 1 1 2 /\ gap_and_turns 2 1 1 1 1 (/ (10 * mu0)) 1 rel = Some (1 / 10, 2%nat) /\
  flux_density_peak (INR 2) 1 (rel (1 / 10)) 1 = 4 / 3.
Proof.
  intro rel. pose proof mu0_pos as M. assert (FW : fewest 2 1 1 1 2).
  { split; [lia|]. split; [simpl; lra|]. intros m M1 H. destruct m as [|[|m]]; [lia | simpl in H; lra | lia]. }
  split; [exact FW|]. split; [|unfold flux_density_peak, rel; simpl; field].
  assert (GE : 1 / 10 = (INR 2 ^ 2 / 2 - 1) * mu0 * / (10 * mu0)) by (simpl; field; lra).
  assert (RG : rel (1 / 10) = 3 / 2) by (unfold rel; field).
  assert (GP : 0 < / (10 * mu0)) by (apply Rinv_0_lt_compat; lra).
  assert (GB : residual <= 1 / 10 <= 4 / 10 * 1) by (unfold residual; lra).
  assert (RB : 0 < rel (1 / 10) < INR 2 ^ 2 / 2) by (rewrite RG; simpl; lra).
  apply (C116_correction_refuted 2 1 1 1 1 (/ (10 * mu0)) 1 rel (1 / 10) 2 ltac:(lra) ltac:(lra) ltac:(lra) ltac:(lra) GP FW GE GB RB).
  rewrite RG. unfold flux_density_peak. assert (S : 3 / 2 <= sqrt (2 * (3 / 2)) <= 2).
  { split; [replace (3 / 2) with (sqrt (3 / 2 * (3 / 2))) at 1 by (apply sqrt_square; lra); apply sqrt_le_1_alt; lra|].
    replace 2 with (sqrt (2 * 2)) at 3 by (apply sqrt_square; lra). apply sqrt_le_1_alt; lra. }
  assert (N : nround (sqrt (2 * (3 / 2))) = 2%nat) by (apply Nat.le_antisymm; [apply nround_le; simpl; lra | apply nround_ge; simpl; lra]).
  rewrite N. simpl. lra.
Qed.
(** the same without fringing is sized exactly *)
Example C116_without_fringing_witness : gap_and_turns 2 1 1 1 1 (/ (10 * mu0)) 1 (fun g => 1 + g / (mu0 * / (10 * mu0))) = Some (1 / 10, 2%nat).
Proof.
  pose proof mu0_pos as M. unfold gap_and_turns.
  assert (C2 : nceil (2 * 1 / (1 * 1)) = 2%nat).
  { replace (2 * 1 / (1 * 1)) with 2 by field. destruct (nceil_bounds 2 ltac:(lra)) as (A & B).
    apply Nat.le_antisymm; [apply nceil_le; simpl; lra|]. apply INR_le. simpl. lra. }
  rewrite C2. cbn [Nat.max]. replace (INR 2 * INR 2 / 2 - 1) with 1 by (simpl; field).
  destruct (Rle_dec 1 0); [lra|]. replace (1 * mu0 * / (10 * mu0)) with (1 / 10) by (field; lra).
  destruct (Rlt_dec (4 / 10 * 1) (1 / 10)); [lra|]. rewrite (Rmax_right residual (1 / 10)) by (unfold residual; lra).
  replace (1 + 1 / 10 / (mu0 * / (10 * mu0))) with 2 by (field; lra).
  rewrite sqrt_square by lra. assert (N2 : nround 2 = 2%nat) by (replace 2 with (INR 2) by (simpl; lra); apply nround_INR). rewrite N2. cbn [Nat.max].
  unfold flux_density_peak. destruct (Rlt_dec _ _) as [L|L]; [simpl in L; lra | reflexivity].
Qed.
Example C117_witness : exists mu unbiased rel, (forall h h', 0 <= h -> h <= h' -> 0 < mu h' <= mu h) /\ 0 < unbiased /\
  (forall m m', 0 < m -> m <= m' -> 0 < rel m' <= rel m) /\ 0 < rel unbiased.
Proof.
  exists (fun h => 1 / (1 + Rabs h)), 1, (fun m => 1 / m). split.
  { intros h h' H L. rewrite !Rabs_right by lra. split; [apply Rdiv_pos; lra | apply inv_decreases_le; lra]. }
  split; [lra|]. split; [|lra]. intros m m' P L; split; [apply Rdiv_pos; lra | apply inv_decreases_le; lra].
Qed.

Print Assumptions C116_volt_seconds.
Print Assumptions C116_gapped.
Print Assumptions C117_faraday.
