(** * Turns for an inductance (C114) and gaps by search (C115) *)
From Coq Require Import Reals List Lra Lia ZArith Psatz.
From Verif Require Import Base GapModel GapProofs SizingModel SizingProofs.
Import ListNotations.
Local Open Scope R_scope.

(** ** C114 *)

(** There is always at least one turn. *)
Theorem C114_at_least_one : forall desired present rel inductance p, (1 <= number_turns desired present rel inductance p)%nat.
Proof.
  intros desired [t|] rel inductance p; unfold number_turns; [|lia]. destruct (Rle_dec desired 0); [lia|].
  destruct inductance as [f|]; [destruct p; lia | unfold turns_seed; lia].
Qed.

(** An inductance that is not specified keeps the turns. *)
Theorem C114_unspecified : forall desired t rel inductance p, desired <= 0 -> (1 <= t)%nat ->
  number_turns desired (Some t) rel inductance p = t.
Proof. intros desired t rel inductance p D T. unfold number_turns. destruct (Rle_dec desired 0); [lia | contradiction]. Qed.

(** When the inductance follows the square of the turns, a minimum is met by the
    least number of turns that reaches it, whatever the seed. *)
Theorem C114_minimum : forall k f desired t rel, 0 < k -> (forall n, f n = k * INR n ^ 2) -> 0 < desired ->
  let n := number_turns desired (Some t) rel (Some f) Minimum in
  desired <= f n /\ forall n', (1 <= n')%nat -> desired <= f n' -> (n <= n')%nat.
Proof.
  intros k f desired t rel K F D n. assert (SQ : square_law k f) by (split; assumption).
  unfold n, number_turns. destruct (Rle_dec desired 0) as [Z0|_]; [lra|].
  rewrite (square_law_newton k f desired _ SQ D) by (unfold turns_seed; lia).
  destruct (square_law_root k desired K D) as (X & _). set (x := sqrt (desired / k)) in *.
  destruct (nround_bounds x (Rlt_le _ _ X)) as (B1 & B2). set (m := Nat.max 1 (nround x)).
  assert (M1 : (1 <= m)%nat) by (unfold m; lia).
  assert (MH : x < INR m + 1 / 2).
  { assert (INR (nround x) <= INR m) by (apply le_INR; unfold m; lia). lra. }
  assert (FP : forall i, (1 <= i)%nat -> 0 < f i) by (intros i I; apply (square_law_step k f desired i SQ D I)).
  assert (LE : forall i, desired <= f i <-> x <= INR i) by (intro i; apply square_law_le; assumption).
  assert (BU : bump 100 desired f m = if Rle_dec desired (f m) then m else (m + 1)%nat).
  { change 100%nat with (S 99). cbn [bump]. destruct (Rle_dec (f m) 0) as [Z|_]; [pose proof (FP m M1); lra|].
    destruct (Rle_dec desired (f m)) as [Q|Q]; [reflexivity|]. change 99%nat with (S 98). cbn [bump].
    destruct (Rle_dec (f (m + 1)%nat) 0) as [Z|_]; [pose proof (FP (m + 1)%nat ltac:(lia)); lra|].
    destruct (Rle_dec desired (f (m + 1)%nat)) as [_|Z]; [reflexivity|]. exfalso. apply Z, LE. rewrite plus_INR. simpl. lra. }
  rewrite BU. destruct (Rle_dec desired (f m)) as [Q|Q].
  - rewrite Nat.max_r by lia. split; [exact Q|]. intros n' N' H. apply LE in H. unfold m. apply Nat.max_lub; [exact N'|].
    apply nround_le; lra.
  - rewrite Nat.max_r by lia. split; [apply LE; rewrite plus_INR; simpl; lra|]. intros n' N' H. apply LE in H.
    assert (~ x <= INR m) by (intro C; apply Q, LE, C). assert (INR m < INR n') by lra. apply INR_lt in H1. lia.
Qed.

(** A nominal value is met by a number of turns that no other one beats. *)
Theorem C114_nominal : forall k f desired t rel, 0 < k -> (forall n, f n = k * INR n ^ 2) -> 0 < desired ->
  let n := number_turns desired (Some t) rel (Some f) Nominal in
  forall n', (1 <= n')%nat -> Rabs (f n - desired) <= Rabs (f n' - desired).
Proof.
  intros k f desired t rel K F D n n' N'. assert (SQ : square_law k f) by (split; assumption).
  unfold n, number_turns. destruct (Rle_dec desired 0) as [Z0|_]; [lra|].
  rewrite (square_law_newton k f desired _ SQ D) by (unfold turns_seed; lia).
  destruct (square_law_root k desired K D) as (X & _). set (x := sqrt (desired / k)) in *.
  destruct (nround_bounds x (Rlt_le _ _ X)) as (B1 & B2). set (m := Nat.max 1 (nround x)).
  assert (M1 : (1 <= m)%nat) by (unfold m; lia).
  assert (FP : forall i, (1 <= i)%nat -> 0 < f i) by (intros i I; apply (square_law_step k f desired i SQ D I)).
  assert (LE : forall i, desired <= f i <-> x <= INR i) by (intro i; apply square_law_le; assumption).
  destruct (nearest_spec [(m - 1)%nat; m; (m + 1)%nat] desired f m None I) as (A & _ & C).
  set (r := nearest _ desired f m None) in *.
  assert (R1 : (1 <= r)%nat) by (destruct C as [-> |(_ & C & _)]; [exact M1 | exact C]).
  rewrite Nat.max_r by exact R1.
  destruct (le_lt_dec n' (m - 1)) as [L|L].
  - assert (M2 : (1 <= m - 1)%nat) by lia. assert (Q : Rabs (f r - desired) <= Rabs (f (m - 1)%nat - desired)).
    { apply A; [left; reflexivity | exact M2 | apply FP, M2]. }
    assert (EM : m = nround x) by (unfold m in *; lia).
    assert (f (m - 1)%nat <= desired).
    { destruct (Rle_dec desired (f (m - 1)%nat)) as [Z|Z]; [|lra]. apply LE in Z.
      rewrite minus_INR in Z by lia. rewrite EM in Z. simpl in Z. lra. }
    pose proof (square_law_mono k f n' (m - 1)%nat SQ L). rewrite (Rabs_left1 (f (m - 1)%nat - desired)) in Q by lra.
    rewrite (Rabs_left1 (f n' - desired)) by lra. lra.
  - destruct (Nat.eq_dec n' m) as [-> |NE]; [apply A; [right; left; reflexivity | exact M1 | apply FP, M1]|].
    assert (Q : Rabs (f r - desired) <= Rabs (f (m + 1)%nat - desired)).
    { apply A; [right; right; left; reflexivity | lia | apply FP; lia]. }
    assert (desired <= f (m + 1)%nat).
    { apply LE. assert (INR (nround x) <= INR m) by (apply le_INR; unfold m; lia). rewrite plus_INR. simpl. lra. }
    pose proof (square_law_mono k f (m + 1)%nat n' SQ ltac:(lia)). rewrite (Rabs_right (f (m + 1)%nat - desired)) in Q by lra.
    rewrite (Rabs_right (f n' - desired)) by lra. lra.
Qed.

(** So the turns of an inductance are recovered from it, in both cases. *)
Theorem C114_round_trip : forall k f n t rel p, 0 < k -> (forall n, f n = k * INR n ^ 2) -> (1 <= n)%nat ->
  number_turns (f n) (Some t) rel (Some f) p = n.
Proof.
  intros k f n t rel p K F N. assert (SQ : square_law k f) by (split; assumption).
  assert (D : 0 < f n) by (apply (square_law_step k f 1 n SQ Rlt_0_1 N)). destruct p.
  - destruct (C114_minimum k f (f n) t rel K F D) as (A & B). set (r := number_turns _ _ _ _ _) in *.
    apply Nat.le_antisymm; [apply B; [exact N | lra]|]. apply INR_le. rewrite !F in A.
    apply Rmult_le_reg_l in A; [|exact K]. pose proof (pos_INR n). pose proof (pos_INR r). nra.
  - pose proof (C114_nominal k f (f n) t rel K F D n N) as A. set (r := number_turns _ _ _ _ _) in *.
    rewrite (Rminus_diag_eq (f n)), Rabs_R0 in A by reflexivity. pose proof (Rabs_pos (f r - f n)).
    apply (square_law_inj k f r n SQ). assert (Z : Rabs (f r - f n) = 0) by lra.
    destruct (Req_dec (f r - f n) 0) as [E|E]; [lra | apply Rabs_no_R0 in E; contradiction].
Qed.

(** Under bias, with any inductance that does not fall with more turns: a minimum
    that can be reached with up to 101 turns is reached. *)
Theorem C114_minimum_biased : forall f desired t rel M, (forall n n', (n <= n')%nat -> f n <= f n') -> (forall n, (1 <= n)%nat -> 0 < f n) ->
  0 < desired -> (M <= 101)%nat -> desired <= f M ->
  desired <= f (number_turns desired (Some t) rel (Some f) Minimum).
Proof.
  intros f desired t rel M MO P D MB FM. unfold number_turns. destruct (Rle_dec desired 0) as [Z0|_]; [lra|].
  assert (N1 : (1 <= newton 6 desired f (turns_seed desired rel))%nat) by (apply newton_pos; unfold turns_seed; lia).
  set (n := newton 6 desired f (turns_seed desired rel)) in *.
  destruct (bump_spec 100 desired f n) as (B1 & B2 & _). set (r := bump 100 desired f n) in *.
  rewrite Nat.max_r by lia. destruct B2 as [B2|[B2|B2]].
  - pose proof (P r ltac:(lia)). lra.
  - exact B2.
  - apply Rle_trans with (f M); [exact FM | apply MO; lia].
Qed.

(** Past a hundred steps the search gives up without a word. *)
Theorem C114_minimum_refuted : exists f desired rel,
  (forall n n', (n <= n')%nat -> f n <= f n') /\ (forall n, (1 <= n)%nat -> 0 < f n) /\ 0 < desired /\ desired <= f 1000%nat /\
  f (number_turns desired (Some 1%nat) rel (Some f) Minimum) < desired.
Proof.
  set (f := fun n => if Nat.leb 1000 n then 5 else 3). exists f, 4, 0.
  assert (F3 : forall n, (n < 1000)%nat -> f n = 3) by (intros n H; unfold f; rewrite (proj2 (Nat.leb_gt 1000 n) H); reflexivity).
  split; [intros n n' H; unfold f; destruct (Nat.leb_spec 1000 n), (Nat.leb_spec 1000 n'); try lia; lra|].
  split; [intros n _; unfold f; destruct (Nat.leb 1000 n); lra|]. split; [lra|]. split; [unfold f; simpl; lra|].
  unfold number_turns. destruct (Rle_dec 4 0); [lra|].
  assert (S1 : turns_seed 4 0 = 1%nat).
  { unfold turns_seed. replace (4 * 0) with 0 by ring. rewrite sqrt_0. replace 0 with (INR 0) by reflexivity. rewrite nround_INR. reflexivity. }
  rewrite S1.
  assert (N1 : newton 6 4 f 1 = 1%nat).
  { cbn [newton]. rewrite F3 by lia. destruct (Rle_dec 3 0); [lra|].
    assert (nround (INR 1 * sqrt (4 / 3)) <= 1)%nat.
    { assert (0 < sqrt (4 / 3)) by (apply sqrt_lt_R0; lra). apply nround_le; simpl; [lra|].
      assert (sqrt (4 / 3) < 3 / 2); [|lra]. replace (3 / 2) with (sqrt ((3 / 2) * (3 / 2))) by (apply sqrt_square; lra).
      apply sqrt_lt_1_alt. lra. }
    rewrite Nat.max_l by assumption. reflexivity. }
  rewrite N1. destruct (bump_spec 100 4 f 1) as (B1 & _). rewrite Nat.max_r by lia. rewrite F3 by lia. lra.
Qed.

(** Nor is the number the least, once the inductance grows slower than the square. *)
Theorem C114_least_refuted : exists f desired rel n',
  (forall n n', (n < n')%nat -> f n < f n') /\ (forall n, (1 <= n)%nat -> 0 < f n) /\ 0 < desired /\ (1 <= n')%nat /\ desired <= f n' /\
  (n' < number_turns desired (Some 1%nat) rel (Some f) Minimum)%nat.
Proof.
  set (f := fun n => 4 + INR n). exists f, 6, (9 / 6), 2%nat.
  split; [intros n n' H; unfold f; apply lt_INR in H; lra|].
  split; [intros n H; unfold f; pose proof (pos_INR n); lra|]. split; [lra|]. split; [lia|]. split; [unfold f; simpl; lra|].
  unfold number_turns. destruct (Rle_dec 6 0); [lra|].
  assert (S1 : turns_seed 6 (9 / 6) = 3%nat).
  { unfold turns_seed. replace (6 * (9 / 6)) with (3 * 3) by field. rewrite sqrt_square by lra.
    replace 3 with (INR 3) by (simpl; lra). rewrite nround_INR. reflexivity. }
  rewrite S1.
  assert (N1 : newton 6 6 f 3 = 3%nat).
  { cbn [newton]. destruct (Rle_dec (f 3%nat) 0) as [Z|_]; [unfold f in Z; simpl in Z; lra|].
    assert (E : nround (INR 3 * sqrt (6 / f 3%nat)) = 3%nat).
    { assert (F3 : f 3%nat = 7) by (unfold f; simpl; lra). rewrite F3.
      assert (A : 9 / 10 <= sqrt (6 / 7)).
      { replace (9 / 10) with (sqrt ((9 / 10) * (9 / 10))) by (apply sqrt_square; lra). apply sqrt_le_1_alt. lra. }
      assert (B : sqrt (6 / 7) <= 1) by (rewrite <- sqrt_1; apply sqrt_le_1_alt; lra).
      apply Nat.le_antisymm; [apply nround_le; simpl; lra | apply nround_ge; simpl; lra]. }
    rewrite E. reflexivity. }
  rewrite N1. destruct (bump_spec 100 6 f 3) as (B1 & _). lia.
Qed.

(** Without an operating point the seed is returned, below a minimum or not. *)
Theorem C114_no_operating_point_refuted : exists desired rel, 0 < desired /\ 0 < rel /\
  INR (number_turns desired (Some 1%nat) rel None Minimum) ^ 2 / rel < desired.
Proof.
  exists 1, ((14 / 10) * (14 / 10)). split; [lra|]. split; [lra|]. unfold number_turns. destruct (Rle_dec 1 0); [lra|].
  assert (E : turns_seed 1 (14 / 10 * (14 / 10)) = 1%nat).
  { unfold turns_seed. rewrite Rmult_1_l, sqrt_square by lra.
    assert (nround (14 / 10) = 1%nat) as -> by (apply Nat.le_antisymm; [apply nround_le; simpl; lra | apply nround_ge; simpl; lra]).
    reflexivity. }
  rewrite E. simpl. lra.
Qed.

(** ** C115 *)

(** The gap for an inductance: when the reluctance grows with the gap and a gap
    of up to 84 mm gives the inductance, the gap before rounding is within the
    residual gap of it or gives the reluctance to one in a thousand; rounding
    adds half a unit of the last decimal. *)
Theorem C115_gap : forall turns desired rel decimals goal, 0 < turns -> 0 < desired ->
  (forall x y, residual <= x -> x < y -> rel x < rel y) ->
  residual <= goal -> goal <= residual + 84 / 1000 -> rel goal = turns ^ 2 / desired ->
  exists g, Rabs (gap_for_inductance turns desired rel decimals - g) <= / 10 ^ decimals / 2 /\ residual <= g /\
    (Rabs (g - goal) <= residual \/ Rabs (turns ^ 2 / desired - rel g) < turns ^ 2 / desired / 1000).
Proof.
  intros turns desired rel decimals goal T D MO G1 G2 H. unfold gap_for_inductance.
  assert (NP : 0 < turns ^ 2 / desired) by (apply Rdiv_pos; [apply pow_lt; exact T | exact D]).
  set (needed := turns ^ 2 / desired) in *.
  destruct (search_climbs needed rel goal NP MO G1 H 84 100 residual) as (A & B);
    [lra | exact G1 | unfold search_step; rewrite INR_IZR_INZ; simpl; lra | lia |].
  set (g := gap_search 100 needed rel residual search_step true) in *. exists g.
  pose proof residual_pos as RP. pose proof (round_to_close g decimals ltac:(lra)) as RC.
  split; [|split; [exact A|]].
  - unfold Rmax. destruct (Rle_dec residual (round_to g decimals)); [exact RC|]. apply Rabs_le_inv in RC. apply Rabs_le. lra.
  - destruct B as [B|B]; [right | left; exact B]. unfold within in B.
    apply Rmult_lt_reg_r with (/ needed); [apply Rinv_0_lt_compat; exact NP|]. unfold Rdiv in *.
    replace (needed * / 1000 * / needed) with (/ 1000) by (field; lra). lra.
Qed.

(** Never below the residual gap. *)
Theorem C115_gap_residual : forall turns desired rel decimals, residual <= gap_for_inductance turns desired rel decimals.
Proof. intros. apply Rmax_l. Qed.

(** The four decimals of the default are tenths of a millimetre: the gap of
    forty micrometres that gives the inductance is rounded away, and the
    reluctance is a third of the one needed. *)
Theorem C115_rounding_refuted : exists turns desired rel goal, 0 < turns /\ 0 < desired /\
  (forall x y, residual <= x -> x < y -> rel x < rel y) /\ residual <= goal /\ rel goal = turns ^ 2 / desired /\
  rel (gap_for_inductance turns desired rel 4) <= turns ^ 2 / desired * (3 / 10).
Proof.
  exists 1, 20000, (fun g => 1 / 100000 + g), (4 / 100000).
  split; [lra|]. split; [lra|]. split; [intros; lra|]. split; [unfold residual; lra|]. split; [lra|].
  assert (E : gap_for_inductance 1 20000 (fun g => 1 / 100000 + g) 4 = residual); [|rewrite E; unfold residual; lra].
  unfold gap_for_inductance.
  destruct (search_climbs (1 ^ 2 / 20000) (fun g => 1 / 100000 + g) (4 / 100000)) with (j := 84%nat) (fuel := 100%nat) (g := residual)
    as (A & B); try (unfold residual; lra); try (intros; lra); try lia.
  { unfold search_step, residual. rewrite INR_IZR_INZ; simpl; lra. }
  set (g := gap_search _ _ _ _ _ _) in *.
  assert (GB : residual <= g <= 46 / 1000000).
  { split; [exact A|]. destruct B as [B|B].
    - unfold within in B. replace (1 ^ 2 / 20000) with (5 / 100000) in B by field.
      assert (Q : Rabs (5 / 100000 - (1 / 100000 + g)) < 5 / 100000 / 1000).
      { apply Rmult_lt_reg_r with (/ (5 / 100000)); [lra|]. unfold Rdiv in *. lra. }
      apply Rlt_le, Rabs_le_inv in Q. lra.
    - apply Rabs_le_inv in B. unfold residual in B. lra. }
  unfold residual in GB. unfold round_to. assert (nround (g * 10 ^ 4) = 0%nat) as ->.
  { apply Nat.le_0_r. apply nround_le; simpl; lra. }
  simpl. unfold residual. rewrite Rmax_left; [reflexivity | lra].
Qed.

(** An inductance above that of the residual gap cannot be had: a gap is
    returned all the same, with less inductance. *)
Theorem C115_unreachable_refuted : forall turns desired rel decimals, 0 < turns -> 0 < desired ->
  (forall x y, residual <= x -> x < y -> rel x < rel y) -> 0 < rel residual -> turns ^ 2 / rel residual < desired ->
  turns ^ 2 / rel (gap_for_inductance turns desired rel decimals) < desired.
Proof.
  intros turns desired rel decimals T D MO R0 H. pose proof (C115_gap_residual turns desired rel decimals) as L.
  set (g := gap_for_inductance turns desired rel decimals) in *. assert (rel residual <= rel g).
  { destruct (Req_dec g residual) as [-> |N]; [lra|]. apply Rlt_le, MO; lra. }
  apply Rle_lt_trans with (turns ^ 2 / rel residual); [|exact H]. apply inv_decreases_le; [apply pow2_ge_0 | exact R0 | exact H0].
Qed.

(** The gap against saturation is the first of the series of gaps that meets the
    target, and at most 2.25 times the first one, when the column is no wider
    than the effective area and one turn is not already too many. *)
Theorem C115_saturation : forall desired current target effective_length mu effective_area gap_area,
  0 < desired -> 0 < current -> 0 < target -> 0 < effective_length -> 0 < mu -> 0 < effective_area ->
  0 < gap_area <= effective_area -> 1 <= desired * current / (effective_area * target) ->
  let g := gap_against_saturation desired current target effective_length mu effective_area gap_area in
  let first := desired * current ^ 2 * mu0 / (effective_area * target ^ 2) in
  peak_density desired current (classic_total effective_length mu effective_area gap_area g) effective_area <= target /\
  first <= g <= first * (9 / 4).
Proof.
  intros desired current target effective_length mu effective_area gap_area D I T EL MU EA GA X1 g first.
  pose proof mu0_pos as M. unfold g, gap_against_saturation. fold first.
  set (density := fun g => peak_density desired current (classic_total effective_length mu effective_area gap_area g) effective_area).
  assert (FP : 0 < first).
  { unfold first. apply Rdiv_pos; [|apply Rmult_lt_0_compat; [exact EA | apply pow_lt; exact T]].
    apply Rmult_lt_0_compat; [apply Rmult_lt_0_compat; [exact D | apply pow_lt; exact I] | exact M]. }
  set (x := desired * current / (effective_area * target)) in *.
  assert (K2 : density (first * (3 / 2) ^ 2) <= target).
  { unfold density, peak_density. set (total := classic_total _ _ _ _ _).
    assert (TB : (9 / 4) * (x ^ 2 / desired) <= total).
    { unfold total, classic_total. assert (0 < effective_length / (mu0 * mu * effective_area)).
      { apply Rdiv_pos; [exact EL|]. apply Rmult_lt_0_compat; [apply Rmult_lt_0_compat|]; assumption. }
      assert (E : (9 / 4) * (x ^ 2 / desired) = first * (3 / 2) ^ 2 / (mu0 * effective_area)).
      { unfold x, first. field. repeat split; lra. }
      rewrite E. assert (first * (3 / 2) ^ 2 / (mu0 * effective_area) <= first * (3 / 2) ^ 2 / (mu0 * gap_area)); [|lra].
      apply inv_decreases_le; [apply Rmult_le_pos; [lra | apply pow2_ge_0] | apply Rmult_lt_0_compat; lra | apply Rmult_le_compat_l; lra]. }
    assert (TP : 0 < total).
    { assert (0 < x ^ 2 / desired) by (apply Rdiv_pos; [apply pow_lt; lra | exact D]). lra. }
    set (y := sqrt (desired * total)).
    assert (YP : 0 < desired * total) by (apply Rmult_lt_0_compat; assumption).
    assert (Y2 : y ^ 2 = desired * total) by (unfold y; apply pow2_sqrt; lra).
    assert (Y0 : 0 <= y) by apply sqrt_pos.
    assert (YX : (9 / 4) * x ^ 2 <= y ^ 2).
    { rewrite Y2. apply Rmult_le_compat_l with (r := desired) in TB; [|lra].
      replace (desired * (9 / 4 * (x ^ 2 / desired))) with (9 / 4 * x ^ 2) in TB by (field; lra). exact TB. }
    assert (Y1 : (3 / 2) * x <= y) by nra.
    destruct (nround_bounds y Y0) as (B1 & _).
    assert (NB : INR (Nat.max 1 (nround y)) <= (3 / 2) * y).
    { destruct (Nat.max_spec 1 (nround y)) as [(_ & ->)|(_ & ->)]; [lra | simpl; lra]. }
    set (n := INR (Nat.max 1 (nround y))) in *.
    assert (TE : total = y ^ 2 / desired) by (rewrite Y2; field; lra). rewrite TE.
    replace (n * current / (y ^ 2 / desired) / effective_area) with (n * (desired * current / effective_area) / y ^ 2) by (field; lra).
    assert (XE : desired * current / effective_area = x * target) by (unfold x; field; lra). rewrite XE.
    apply Rmult_le_reg_r with (y ^ 2); [apply pow_lt; lra|].
    replace (n * (x * target) / y ^ 2 * y ^ 2) with (n * (x * target)) by (field; lra).
    assert (n * x <= y ^ 2) by nra. nra. }
  destruct (saturation_loop_spec 15 density target first) as (k & K & E & S & P). rewrite E.
  assert (KB : (k <= 2)%nat).
  { destruct (le_lt_dec k 2) as [L|L]; [exact L|]. pose proof (P 2%nat L). lra. }
  split; [destruct S as [S|S]; [exact S | lia]|].
  destruct k as [|[|[|k]]]; try lia; simpl; lra.
Qed.

(** Otherwise the fifteenth gap is returned unchecked. *)
Theorem C115_saturation_refuted : exists desired current target effective_length mu effective_area gap_area,
  0 < desired /\ 0 < current /\ 0 < target /\ 0 < effective_length /\ 0 < mu /\ 0 < effective_area /\ 0 < gap_area <= effective_area /\
  let g := gap_against_saturation desired current target effective_length mu effective_area gap_area in
  target < peak_density desired current (classic_total effective_length mu effective_area gap_area g) effective_area.
Proof.
  pose proof mu0_pos as M. exists (1 / 1000), 1, 1, (mu0 / 100), 1, 1, 1.
  repeat (split; [lra|]). cbv zeta. unfold gap_against_saturation.
  set (density := fun g => peak_density (1 / 1000) 1 (classic_total (mu0 / 100) 1 1 1 g) 1).
  set (first := 1 / 1000 * 1 ^ 2 * mu0 / (1 * 1 ^ 2)).
  destruct (saturation_loop_spec 15 density 1 first) as (k & K & E & _). rewrite E. change (1 < density (first * (3 / 2) ^ k)).
  unfold density, peak_density. set (total := classic_total _ _ _ _ _).
  assert (TE : total = 1 / 100 + (3 / 2) ^ k / 1000).
  { unfold total, classic_total, first. field. lra. }
  assert (PB : 1 <= (3 / 2) ^ k <= (3 / 2) ^ 15).
  { split; [apply pow_R1_Rle; lra | apply Rle_pow; [lra | exact K]]. }
  simpl in PB. set (p := (3 / 2) ^ k) in *. assert (TB : 0 < total < 1 / 2) by (rewrite TE; lra).
  assert (NB : 1 <= INR (Nat.max 1 (nround (sqrt (1 / 1000 * total))))) by (apply INR_pos; lia).
  set (n := INR _) in *. replace (n * 1 / total / 1) with (n / total) by (field; lra).
  apply Rmult_lt_reg_r with total; [lra|]. replace (n / total * total) with n by (field; lra). lra.
Qed.

(** ** The gap for a fringing factor *)

Lemma scan_point_bounds : forall height i, residual < height -> (i <= 64)%nat ->
  residual <= scan_point height i <= height.
Proof.
  intros height i H I. pose proof residual_pos as RP. unfold scan_point. assert (Q : 1 < height / residual).
  { apply Rmult_lt_reg_r with residual; [exact RP|]. replace (height / residual * residual) with height by (field; lra). lra. }
  assert (E : 0 <= INR i / 64 <= 1).
  { apply le_INR in I. pose proof (pos_INR i). replace (INR 64) with 64 in I by (simpl; lra). lra. }
  assert (A : 1 <= Rpower (height / residual) (INR i / 64)).
  { rewrite <- (Rpower_O (height / residual)) by lra. apply Rle_Rpower; lra. }
  assert (B : Rpower (height / residual) (INR i / 64) <= height / residual).
  { rewrite <- (Rpower_1 (height / residual)) at 2 by lra. apply Rle_Rpower; lra. }
  set (p := Rpower _ _) in *. split; [nra|]. assert (residual * p <= residual * (height / residual)) by (apply Rmult_le_compat_l; lra).
  replace (residual * (height / residual)) with height in * by (field; lra). lra.
Qed.
Lemma scan_point_mono : forall height i, residual < height -> scan_point height i <= scan_point height (S i).
Proof.
  intros height i H. pose proof residual_pos as RP. unfold scan_point. apply Rmult_le_compat_l; [lra|].
  apply Rle_Rpower; [|rewrite S_INR; lra].
  apply Rlt_le, Rmult_lt_reg_r with residual; [exact RP|]. replace (height / residual * residual) with height by (field; lra). lra.
Qed.

Lemma first_bracket_spec : forall n height factor wanted i, residual < height -> (i + n <= 64)%nat ->
  match first_bracket factor wanted (scan_point height i) (map (scan_point height) (seq (S i) n)) with
  | Some g => exists j, (i <= j < i + n)%nat /\
      (factor (scan_point height j) - wanted) * (factor (scan_point height (S j)) - wanted) <= 0 /\
      (forall m, (i <= m < j)%nat -> 0 < (factor (scan_point height m) - wanted) * (factor (scan_point height (S m)) - wanted)) /\
      g = bisect 100 factor wanted (scan_point height j) (scan_point height (S j)) (factor (scan_point height j))
  | None => forall m, (i <= m < i + n)%nat -> 0 < (factor (scan_point height m) - wanted) * (factor (scan_point height (S m)) - wanted)
  end.
Proof.
  induction n as [|n IH]; intros height factor wanted i H B; [simpl; intros m C; lia|].
  cbn [seq map first_bracket]. destruct (Rlt_dec 0 _) as [L|L].
  - pose proof (IH height factor wanted (S i) H ltac:(lia)) as Q.
    destruct (first_bracket factor wanted (scan_point height (S i)) _) as [g|].
    + destruct Q as (j & J & S1 & S2 & E). exists j. split; [lia|]. split; [exact S1|]. split; [|exact E].
      intros m C. destruct (Nat.eq_dec m i) as [-> |N]; [exact L | apply S2; lia].
    + intros m C. destruct (Nat.eq_dec m i) as [-> |N]; [exact L | apply Q; lia].
  - exists i. split; [lia|]. split; [lra|]. split; [intros m C; lia | reflexivity].
Qed.

(** The gap lies between the residual gap and the column height. *)
Theorem C115_fringing_range : forall factor height wanted, residual < height ->
  residual <= gap_by_fringing factor height wanted <= height.
Proof.
  intros factor height wanted H. unfold gap_by_fringing. destruct (Rle_dec height residual) as [Z0|_]; [lra|].
  pose proof (first_bracket_spec 64 height factor wanted 0 H ltac:(lia)) as Q. fold (scan_points height) in Q.
  destruct (first_bracket factor wanted (scan_point height 0) (scan_points height)) as [g|].
  - destruct Q as (j & J & S1 & _ & ->).
    destruct (bisect_spec 100 factor wanted (scan_point height j) (scan_point height (S j)) (scan_point_mono height j H) S1) as (A & _).
    pose proof (scan_point_bounds height j H ltac:(lia)). pose proof (scan_point_bounds height (S j) H ltac:(lia)). lra.
  - destruct (closest_point_spec (scan_points height) factor wanted (scan_point height 0) _ eq_refl) as (A & _).
    set (r := closest_point _ _ _ _ _) in *. destruct A as [-> |A]; [apply scan_point_bounds; [exact H | lia]|].
    unfold scan_points in A. apply in_map_iff in A as (i & <- & I). apply in_seq in I. apply scan_point_bounds; [exact H | lia].
Qed.

(** A column no higher than the residual gap is not searched: the residual gap comes back, whatever
    the factors. *)
Theorem C115_fringing_thin : forall factor height wanted, height <= residual ->
  gap_by_fringing factor height wanted = residual.
Proof. intros factor height wanted H. unfold gap_by_fringing. destruct (Rle_dec height residual); [reflexivity|lra]. Qed.

(** If the scan crosses the factor and the factor is continuous, the gap gives it
    to one in a thousand or is within a twentieth of the residual gap of one
    that gives it, and no crossing was seen before. *)
Theorem C115_fringing : forall factor height wanted, residual < height <= 1000 -> continuity factor ->
  let g := gap_by_fringing factor height wanted in
  let crossed i := (factor (scan_point height i) - wanted) * (factor (scan_point height (S i)) - wanted) <= 0 in
  forall i, (i < 64)%nat -> crossed i -> (forall m, (m < i)%nat -> ~ crossed m) ->
  scan_point height i <= g <= scan_point height (S i) /\
  (Rabs (factor g - wanted) / wanted < 1 / 1000 \/ exists z, factor z = wanted /\ Rabs (g - z) <= residual / 20).
Proof.
  intros factor height wanted H C g crossed i I X F. unfold g, gap_by_fringing. destruct (Rle_dec height residual) as [Z0|_]; [lra|].
  pose proof (first_bracket_spec 64 height factor wanted 0 ltac:(lra) ltac:(lia)) as Q. fold (scan_points height) in Q.
  destruct (first_bracket factor wanted (scan_point height 0) (scan_points height)) as [r|].
  2:{ exfalso. pose proof (Q i ltac:(lia)). unfold crossed in X. lra. }
  destruct Q as (j & J & S1 & S2 & ->). assert (E : j = i).
  { destruct (Nat.lt_trichotomy j i) as [L|[E|L]]; [exfalso; exact (F j L S1) | exact E |].
    exfalso. pose proof (S2 i ltac:(lia)). unfold crossed in X. lra. }
  subst j. destruct (bisect_spec 100 factor wanted (scan_point height i) (scan_point height (S i)) (scan_point_mono height i ltac:(lra)) S1) as (A & B).
  split; [exact A|]. destruct B as [B|(a & b & LA & AB & BH & E & SG & W)]; [left; exact B|]. right.
  assert (CW : continuity (fun x => factor x - wanted)).
  { apply continuity_minus; [exact C | apply continuity_const; intros x y; reflexivity]. }
  destruct (IVT_cor (fun x => factor x - wanted) a b CW AB SG) as (z & Z & FZ). exists z. split; [lra|].
  rewrite E. assert (W' : b - a <= residual / 10).
  { destruct W as [W|W]; [exact W|]. pose proof (scan_point_bounds height i ltac:(lra) ltac:(lia)).
    pose proof (scan_point_bounds height (S i) ltac:(lra) ltac:(lia)). pose proof residual_pos.
    assert (P : 10000000000 <= 2 ^ 100) by (simpl; lra).
    apply Rle_trans with (1 := W). apply Rmult_le_reg_r with (2 ^ 100); [lra|].
    replace ((scan_point height (S i) - scan_point height i) / 2 ^ 100 * 2 ^ 100) with (scan_point height (S i) - scan_point height i) by (field; lra).
    unfold residual in *. apply Rle_trans with 1000; [lra|]. apply Rle_trans with (5 / 1000000 / 10 * 10000000000); [lra|].
    apply Rmult_le_compat_l; lra. }
  apply Rabs_le. lra.
Qed.

(** If it does not, the closest of the scanned gaps is returned. *)
Theorem C115_fringing_closest : forall factor height wanted, residual < height ->
  (forall i, (i < 64)%nat -> 0 < (factor (scan_point height i) - wanted) * (factor (scan_point height (S i)) - wanted)) ->
  let g := gap_by_fringing factor height wanted in
  (exists i, (i <= 64)%nat /\ g = scan_point height i) /\
  forall i, (i <= 64)%nat -> Rabs (factor g - wanted) <= Rabs (factor (scan_point height i) - wanted).
Proof.
  intros factor height wanted H N g. unfold g, gap_by_fringing. destruct (Rle_dec height residual) as [Z0|_]; [lra|].
  pose proof (first_bracket_spec 64 height factor wanted 0 H ltac:(lia)) as Q. fold (scan_points height) in Q.
  destruct (first_bracket factor wanted (scan_point height 0) (scan_points height)) as [r|].
  { exfalso. destruct Q as (j & J & S1 & _). pose proof (N j ltac:(lia)). lra. }
  destruct (closest_point_spec (scan_points height) factor wanted (scan_point height 0) _ eq_refl) as (A & B & C).
  set (r := closest_point _ _ _ _ _) in *. split.
  - destruct A as [A|A]; [exists 0%nat; split; [lia | exact A]|]. unfold scan_points in A. apply in_map_iff in A as (i & E & I).
    apply in_seq in I. exists i. split; [lia | symmetry; exact E].
  - intros i I. destruct (Nat.eq_dec i 0) as [-> |NZ]; [exact B|]. apply C. unfold scan_points. apply in_map, in_seq. lia.
Qed.

(** ** Concrete cases *)
Example C114_witness : exists f, (forall n, f n = 2 * INR n ^ 2) /\ number_turns (f 7%nat) (Some 1%nat) 3 (Some f) Minimum = 7%nat.
Proof.
  exists (fun n => 2 * INR n ^ 2). split; [reflexivity|]. apply (C114_round_trip 2 (fun n => 2 * INR n ^ 2) 7); [lra | reflexivity | lia].
Qed.
Example C115_witness : (forall x y, residual <= x -> x < y -> (fun g => 1 + 1000 * g) x < (fun g => 1 + 1000 * g) y) /\
  residual <= 1 / 1000 <= residual + 84 / 1000 /\ (fun g => 1 + 1000 * g) (1 / 1000) = 2 ^ 2 / 2.
Proof. unfold residual. repeat split; intros; lra. Qed.
Example C115_saturation_witness : 1 <= 1 * 2 / (1 * (1 / 2)) /\ 0 < 1 <= 1.
Proof. lra. Qed.
(** a factor that grows from 1 at no gap crosses 2 somewhere on the scan of a
    column of one metre *)
Example C115_fringing_witness : exists i, (i < 64)%nat /\
  (1 + 2 * scan_point 1 i - 2) * (1 + 2 * scan_point 1 (S i) - 2) <= 0 /\
  (forall m, (m < i)%nat -> ~ (1 + 2 * scan_point 1 m - 2) * (1 + 2 * scan_point 1 (S m) - 2) <= 0).
Proof.
  pose proof residual_pos as RP. assert (H1 : residual < 1) by (unfold residual; lra).
  assert (P0 : scan_point 1 0 = residual).
  { unfold scan_point. replace (INR 0 / 64) with 0 by (simpl; field). rewrite Rpower_O; [ring|]. apply Rdiv_pos; lra. }
  assert (P64 : scan_point 1 64 = 1).
  { unfold scan_point. replace (INR 64 / 64) with 1 by (simpl; field). rewrite Rpower_1; [field; lra|]. apply Rdiv_pos; lra. }
  assert (G : forall n, (n <= 64)%nat -> (exists i, (i < n)%nat /\ (1 + 2 * scan_point 1 i - 2) * (1 + 2 * scan_point 1 (S i) - 2) <= 0 /\
      (forall m, (m < i)%nat -> ~ (1 + 2 * scan_point 1 m - 2) * (1 + 2 * scan_point 1 (S m) - 2) <= 0)) \/
      ((forall m, (m < n)%nat -> ~ (1 + 2 * scan_point 1 m - 2) * (1 + 2 * scan_point 1 (S m) - 2) <= 0) /\ scan_point 1 n < 1 / 2)).
  { induction n as [|n IH]; intro L; [right; split; [intros m C; lia | rewrite P0; unfold residual; lra]|].
    destruct (IH ltac:(lia)) as [(i & I & A)|(A & B)]; [left; exists i; split; [lia | exact A]|].
    destruct (Rlt_dec (scan_point 1 (S n)) (1 / 2)) as [C|C].
    - right. split; [|exact C]. intros m M. destruct (Nat.eq_dec m n) as [-> |NE]; [nra | apply A; lia].
    - left. exists n. split; [lia|]. split; [nra | exact A]. }
  destruct (G 64%nat ltac:(lia)) as [(i & I & A)|(_ & B)]; [exists i; split; [exact I | exact A] | rewrite P64 in B; lra].
Qed.

Print Assumptions C114_minimum.
Print Assumptions C114_nominal.
Print Assumptions C115_gap.
Print Assumptions C115_fringing.
