(** * Lemmas on the sizing of turns and gaps *)
From Coq Require Import Reals List Lra Lia ZArith Psatz.
From Verif Require Import Base GapModel GapProofs SizingModel.
Import ListNotations.
Local Open Scope R_scope.

(** ** Rounding *)

Lemma INR_to_nat : forall z, (0 <= z)%Z -> INR (Z.to_nat z) = IZR z.
Proof. intros z H. rewrite INR_IZR_INZ, Z2Nat.id; [reflexivity | exact H]. Qed.

Lemma nround_bounds : forall x, 0 <= x -> INR (nround x) <= x + 1 / 2 /\ x < INR (nround x) + 1 / 2.
Proof.
  intros x H. unfold nround. destruct (base_Int_part (x + 1 / 2)) as (A & B).
  assert (P : (0 <= Int_part (x + 1 / 2))%Z).
  { assert (-1 < Int_part (x + 1 / 2))%Z; [|lia]. apply lt_IZR. lra. }
  rewrite INR_to_nat by exact P. lra.
Qed.
Lemma nround_le : forall x n, 0 <= x -> x < INR n + 1 / 2 -> (nround x <= n)%nat.
Proof.
  intros x n P H. destruct (nround_bounds x P) as (A & _).
  assert (INR (nround x) < INR (n + 1)) by (rewrite plus_INR; simpl; lra). apply INR_lt in H0. lia.
Qed.
Lemma nround_ge : forall x n, 0 <= x -> INR n - 1 / 2 <= x -> (n <= nround x)%nat.
Proof.
  intros x n P H. destruct (nround_bounds x P) as (_ & A).
  assert (INR n < INR (nround x + 1)) by (rewrite plus_INR; simpl; lra). apply INR_lt in H0. lia.
Qed.
Lemma nround_INR : forall n, nround (INR n) = n.
Proof.
  intro n. pose proof (pos_INR n). apply Nat.le_antisymm; [apply nround_le; lra | apply nround_ge; lra].
Qed.

Lemma nceil_bounds : forall x, 0 < x -> x <= INR (nceil x) /\ INR (nceil x) < x + 1.
Proof.
  intros x H. unfold nceil. destruct (base_Int_part (- x)) as (A & B).
  assert (P : (0 <= - Int_part (- x))%Z).
  { assert (Int_part (- x) < 0)%Z; [|lia]. apply lt_IZR. lra. }
  rewrite INR_to_nat by exact P. rewrite opp_IZR. lra.
Qed.
Lemma nceil_le : forall x n, 0 < x -> x <= INR n -> (nceil x <= n)%nat.
Proof.
  intros x n P H. destruct (nceil_bounds x P) as (_ & A).
  assert (INR (nceil x) < INR (n + 1)) by (rewrite plus_INR; simpl; lra). apply INR_lt in H0. lia.
Qed.

Lemma INR_pos : forall n, (1 <= n)%nat -> 1 <= INR n.
Proof. intros n H. apply le_INR in H. simpl in H. exact H. Qed.

Lemma Rabs_le_inv : forall x b, Rabs x <= b -> - b <= x <= b.
Proof. intros x b H. unfold Rabs in H. destruct (Rcase_abs x); lra. Qed.

(** ** Turns *)

Lemma newton_pos : forall fuel d f n, (1 <= n)%nat -> (1 <= newton fuel d f n)%nat.
Proof.
  induction fuel as [|k IH]; intros d f n H; cbn [newton]; [exact H|]. destruct (Rle_dec (f n) 0); [exact H|].
  destruct (Nat.eqb _ n); [exact H|]. apply IH. lia.
Qed.
Lemma bump_spec : forall fuel d f n, let r := bump fuel d f n in
  (n <= r <= n + fuel)%nat /\ (f r <= 0 \/ d <= f r \/ r = (n + fuel)%nat) /\
  (forall i, (n <= i < r)%nat -> 0 < f i < d).
Proof.
  induction fuel as [|k IH]; intros d f n; cbn [bump].
  - split; [lia|]. split; [right; right; lia | intros i H; lia].
  - destruct (Rle_dec (f n) 0) as [A|A]; [split; [lia|]; split; [left; exact A | intros i H; lia]|].
    destruct (Rle_dec d (f n)) as [B|B]; [split; [lia|]; split; [right; left; exact B | intros i H; lia]|].
    destruct (IH d f (n + 1)%nat) as (I1 & I2 & I3). split; [lia|]. split.
    + destruct I2 as [I2|[I2|I2]]; [left; exact I2 | right; left; exact I2 | right; right; lia].
    + intros i H. destruct (Nat.eq_dec i n) as [-> |N]; [lra|]. apply I3. lia.
Qed.

Lemma nearest_spec : forall l d f best error,
  match error with Some e => e = Rabs (f best - d) | None => True end ->
  let r := nearest l d f best error in
  (forall c, In c l -> (1 <= c)%nat -> 0 < f c -> Rabs (f r - d) <= Rabs (f c - d)) /\
  (match error with Some e => Rabs (f r - d) <= e | None => True end) /\
  (r = best \/ (In r l /\ (1 <= r)%nat /\ 0 < f r)).
Proof.
  induction l as [|c l IH]; intros d f best error H; cbn [nearest].
  - split; [intros c []|]. split; [destruct error; [lra | exact I] | left; reflexivity].
  - assert (SKIP : forall r, ((forall c, In c l -> (1 <= c)%nat -> 0 < f c -> Rabs (f r - d) <= Rabs (f c - d)) /\
        (match error with Some e => Rabs (f r - d) <= e | None => True end) /\
        (r = best \/ (In r l /\ (1 <= r)%nat /\ 0 < f r))) -> ~ ((1 <= c)%nat /\ 0 < f c) ->
        (forall c', In c' (c :: l) -> (1 <= c')%nat -> 0 < f c' -> Rabs (f r - d) <= Rabs (f c' - d)) /\
        (match error with Some e => Rabs (f r - d) <= e | None => True end) /\
        (r = best \/ (In r (c :: l) /\ (1 <= r)%nat /\ 0 < f r))).
    { intros r (I1 & I2 & I3) N. split; [intros c' [<-|I] A B; [exfalso; tauto | apply I1; assumption]|].
      split; [exact I2|]. destruct I3 as [I3|(I3 & I4)]; [left; exact I3 | right; split; [right; exact I3 | exact I4]]. }
    destruct (Nat.ltb_spec c 1) as [L|L]; [apply SKIP; [apply IH; exact H | lia]|].
    destruct (Rle_dec (f c) 0) as [P|P]; [apply SKIP; [apply IH; exact H | lra]|].
    assert (TAKE : let r := nearest l d f c (Some (Rabs (f c - d))) in
        (forall c', In c' (c :: l) -> (1 <= c')%nat -> 0 < f c' -> Rabs (f r - d) <= Rabs (f c' - d)) /\
        Rabs (f r - d) <= Rabs (f c - d) /\
        (r = best \/ (In r (c :: l) /\ (1 <= r)%nat /\ 0 < f r))).
    { destruct (IH d f c (Some (Rabs (f c - d))) eq_refl) as (I1 & I2 & I3).
      split; [intros c' [<-|I] A B; [exact I2 | apply I1; assumption]|]. split; [exact I2|]. right.
      destruct I3 as [-> |(I3 & I4)]; [split; [left; reflexivity | lra || (split; [exact L | lra])] | split; [right; exact I3 | exact I4]]. }
    destruct error as [e|].
    + destruct (Rlt_dec (Rabs (f c - d)) e) as [Q|Q].
      * destruct TAKE as (T1 & T2 & T3). split; [exact T1|]. split; [lra | exact T3].
      * destruct (IH d f best (Some e) H) as (I1 & I2 & I3). split; [intros c' [<-|I] A B; [lra | apply I1; assumption]|].
        split; [exact I2|]. destruct I3 as [I3|(I3 & I4)]; [left; exact I3 | right; split; [right; exact I3 | exact I4]].
    + destruct TAKE as (T1 & T2 & T3). split; [exact T1|]. split; [exact I | exact T3].
Qed.

(** ** The square law *)

Definition square_law (k : R) (f : nat -> R) : Prop := 0 < k /\ forall n, f n = k * INR n ^ 2.

Lemma square_law_step : forall k f d n, square_law k f -> 0 < d -> (1 <= n)%nat ->
  0 < f n /\ INR n * sqrt (d / f n) = sqrt (d / k).
Proof.
  intros k f d n (K & F) D N. pose proof (INR_pos n N) as P. rewrite F.
  assert (Q : 0 < INR n ^ 2) by (apply pow_lt; lra). split; [apply Rmult_lt_0_compat; assumption|].
  replace (d / (k * INR n ^ 2)) with ((d / k) * (/ INR n) ^ 2) by (field; lra).
  assert (0 < / INR n) by (apply Rinv_0_lt_compat; lra).
  rewrite sqrt_mult; [|apply Rlt_le, Rdiv_pos; assumption | apply pow2_ge_0].
  rewrite sqrt_pow2 by lra. field. lra.
Qed.

Lemma square_law_newton : forall k f d n, square_law k f -> 0 < d -> (1 <= n)%nat ->
  newton 6 d f n = Nat.max 1 (nround (sqrt (d / k))).
Proof.
  intros k f d n SQ D N. set (m := Nat.max 1 (nround (sqrt (d / k)))).
  assert (ST : forall fuel n, (1 <= n)%nat -> newton (S fuel) d f n = if Nat.eqb m n then n else newton fuel d f m).
  { intros fuel i I. cbn [newton]. destruct (square_law_step k f d i SQ D I) as (P & E).
    destruct (Rle_dec (f i) 0); [lra|]. rewrite E. reflexivity. }
  rewrite ST by exact N. destruct (Nat.eqb_spec m n) as [E|E]; [symmetry; exact E|].
  rewrite ST by (unfold m; lia). rewrite Nat.eqb_refl. reflexivity.
Qed.

Lemma square_law_root : forall k d, 0 < k -> 0 < d -> 0 < sqrt (d / k) /\ d = k * sqrt (d / k) ^ 2.
Proof.
  intros k d K D. assert (Q : 0 < d / k) by (apply Rdiv_pos; assumption). split; [apply sqrt_lt_R0; exact Q|].
  rewrite pow2_sqrt by lra. field. lra.
Qed.
Lemma square_law_le : forall k f d n, square_law k f -> 0 < d -> (d <= f n <-> sqrt (d / k) <= INR n).
Proof.
  intros k f d n (K & F) D. destruct (square_law_root k d K D) as (X & E). set (x := sqrt (d / k)) in *.
  rewrite F, E. pose proof (pos_INR n) as P. split; intro H.
  - assert (x ^ 2 <= INR n ^ 2) by (apply Rmult_le_reg_l with k; assumption). nra.
  - apply Rmult_le_compat_l; [lra|]. nra.
Qed.
Lemma square_law_mono : forall k f n n', square_law k f -> (n <= n')%nat -> f n <= f n'.
Proof.
  intros k f n n' (K & F) H. rewrite !F. apply Rmult_le_compat_l; [lra|]. apply le_INR in H. pose proof (pos_INR n). nra.
Qed.
Lemma square_law_inj : forall k f n n', square_law k f -> f n = f n' -> n = n'.
Proof.
  intros k f n n' (K & F) H. rewrite !F in H. apply Rmult_eq_reg_l in H; [|lra]. apply INR_eq.
  pose proof (pos_INR n). pose proof (pos_INR n'). nra.
Qed.

(** ** The gap search *)

Section Search.
  Variables (needed : R) (rel : R -> R) (goal : R).
  Hypothesis needed_pos : 0 < needed.
  Hypothesis rel_increasing : forall x y, residual <= x -> x < y -> rel x < rel y.
  Hypothesis goal_above : residual <= goal.
  Hypothesis goal_hit : rel goal = needed.

  Definition within (g : R) : Prop := Rabs (needed - rel g) / needed < 1 / 1000.
  (** what the search is to return *)
  Definition found (g : R) : Prop := residual <= g /\ (within g \/ Rabs (g - goal) <= residual).

  Lemma residual_pos : 0 < residual. Proof. unfold residual. lra. Qed.
  Lemma above : forall g, residual <= g -> needed < rel g -> goal < g.
  Proof.
    intros g G H. destruct (Rtotal_order goal g) as [L|[E|L]]; [exact L | subst; lra|].
    pose proof (rel_increasing g goal G L). lra.
  Qed.
  Lemma below : forall g, residual <= g -> rel g < needed -> g < goal.
  Proof.
    intros g G H. destruct (Rtotal_order goal g) as [L|[E|L]]; [|subst; lra | exact L].
    pose proof (rel_increasing goal g goal_above L). lra.
  Qed.
  Lemma not_within : forall g, residual <= g -> ~ within g -> needed < rel g \/ rel g < needed.
  Proof.
    intros g G N. destruct (Rtotal_order needed (rel g)) as [L|[E|L]]; [left; exact L | | right; exact L].
    exfalso. apply N. unfold within. rewrite E, Rminus_diag_eq, Rabs_R0 by reflexivity. unfold Rdiv. lra.
  Qed.

  (** one step from a point no further than the step from the goal *)
  Definition flips (g : R) (inc : bool) : Prop := if inc then needed < rel g else rel g < needed.
  Definition moved (g step : R) (inc : bool) : R := if inc then g + step else Rmax residual (g - step).
  Lemma moved_residual : forall g step inc, residual <= g -> 0 <= step -> residual <= moved g step inc.
  Proof. intros g step [] G S; unfold moved; [lra | apply Rmax_l]. Qed.
  Lemma search_step_eq : forall k g step inc, ~ within g ->
    gap_search (S k) needed rel g step inc
    = if inc then (if Rlt_dec needed (rel g) then gap_search k needed rel (moved g (Rmax (step / 2) residual) false) (Rmax (step / 2) residual) false
                   else gap_search k needed rel (moved g step true) step true)
      else (if Rlt_dec (rel g) needed then gap_search k needed rel (moved g (Rmax (step / 2) residual) true) (Rmax (step / 2) residual) true
            else gap_search k needed rel (moved g step false) step false).
  Proof.
    intros k g step inc N. cbn [gap_search]. unfold within in N. destruct (Rlt_dec (Rabs (needed - rel g) / needed) (1 / 1000)); [contradiction|].
    destruct inc.
    - destruct (Rlt_dec needed (rel g)); reflexivity.
    - destruct (Rlt_dec (rel g) needed); reflexivity.
  Qed.

  Lemma clamp_close : forall x b, Rabs (x - goal) <= b -> Rabs (Rmax residual x - goal) <= b.
  Proof.
    intros x b H. unfold Rmax. destruct (Rle_dec residual x); [exact H|]. apply Rabs_le_inv in H. apply Rabs_le. lra.
  Qed.

  (** after a turn the next point is within the new step *)
  Lemma turn_close : forall g step inc, residual <= g -> residual <= step -> Rabs (g - goal) <= step -> flips g inc ->
    Rabs (moved g (Rmax (step / 2) residual) (negb inc) - goal) <= Rmax (step / 2) residual.
  Proof.
    intros g step inc G S C F. pose proof (Rmax_l (step / 2) residual) as M1. pose proof residual_pos.
    set (m := Rmax (step / 2) residual) in *. apply Rabs_le_inv in C. unfold flips in F. destruct inc; cbn [negb moved].
    - pose proof (above g G F). apply clamp_close. apply Rabs_le. lra.
    - pose proof (below g G F). apply Rabs_le. lra.
  Qed.
  (** going on in the same direction passes the goal *)
  Lemma same_close : forall g step inc, residual <= g -> residual <= step -> Rabs (g - goal) <= step -> ~ within g -> ~ flips g inc ->
    Rabs (moved g step inc - goal) <= step /\ (if inc then goal <= moved g step inc else moved g step inc <= goal).
  Proof.
    intros g step inc G S C N F. apply Rabs_le_inv in C. pose proof residual_pos. unfold flips in F.
    destruct (not_within g G N) as [Q|Q]; destruct inc; try contradiction; cbn [moved].
    - pose proof (above g G Q). split; [apply clamp_close, Rabs_le; lra|]. apply Rmax_lub; lra.
    - pose proof (below g G Q). split; [apply Rabs_le; lra | lra].
  Qed.

  Lemma search_residual : forall fuel g step inc, residual <= g -> residual <= step ->
    residual <= gap_search fuel needed rel g step inc.
  Proof.
    induction fuel as [|k IH]; intros g step inc G S; [exact G|].
    destruct (Rlt_dec (Rabs (needed - rel g) / needed) (1 / 1000)) as [W|W].
    { cbn [gap_search]. destruct (Rlt_dec _ _); [exact G | contradiction]. }
    rewrite search_step_eq by exact W. pose proof (Rmax_r (step / 2) residual). pose proof residual_pos.
    destruct inc; [destruct (Rlt_dec needed (rel g)) | destruct (Rlt_dec (rel g) needed)]; apply IH; try assumption; apply moved_residual; lra.
  Qed.

  (** at the smallest step the point stays within it *)
  Lemma search_fine : forall fuel g inc, residual <= g -> Rabs (g - goal) <= residual ->
    found (gap_search fuel needed rel g residual inc).
  Proof.
    pose proof residual_pos as RP. induction fuel as [|k IH]; intros g inc G C; [split; [exact G | right; exact C]|].
    destruct (Rlt_dec (Rabs (needed - rel g) / needed) (1 / 1000)) as [W|W].
    { cbn [gap_search]. destruct (Rlt_dec _ _); [|contradiction]. split; [exact G | left; exact W]. }
    rewrite search_step_eq by exact W.
    assert (RM : Rmax (residual / 2) residual = residual) by (apply Rmax_right; lra). rewrite RM.
    destruct inc; [destruct (Rlt_dec needed (rel g)) as [Q|Q] | destruct (Rlt_dec (rel g) needed) as [Q|Q]].
    - pose proof (turn_close g residual true G (Rle_refl _) C Q) as T. rewrite RM in T. apply IH; [apply moved_residual; lra | exact T].
    - pose proof (same_close g residual true G (Rle_refl _) C W Q) as (T & _). apply IH; [apply moved_residual; lra | exact T].
    - pose proof (turn_close g residual false G (Rle_refl _) C Q) as T. rewrite RM in T. apply IH; [apply moved_residual; lra | exact T].
    - pose proof (same_close g residual false G (Rle_refl _) C W Q) as (T & _). apply IH; [apply moved_residual; lra | exact T].
  Qed.

  Lemma half_step : forall step k, residual <= step -> step <= residual * 2 ^ S k ->
    residual <= Rmax (step / 2) residual /\ Rmax (step / 2) residual <= residual * 2 ^ k.
  Proof.
    intros step k S H. split; [apply Rmax_r|]. pose proof residual_pos. assert (1 <= 2 ^ k) by (apply pow_R1_Rle; lra).
    apply Rmax_lub; [simpl in H; lra | nra].
  Qed.

  (** the step halves at least every other move *)
  Lemma search_closes : forall k fuel g step inc, residual <= g -> residual <= step -> step <= residual * 2 ^ k ->
    Rabs (g - goal) <= step -> (2 * k <= fuel)%nat -> found (gap_search fuel needed rel g step inc).
  Proof.
    pose proof residual_pos as RP. induction k as [|k IH]; intros fuel g step inc G S SK C FU.
    { simpl in SK. assert (E : step = residual) by lra. subst step. apply search_fine; assumption. }
    destruct fuel as [|[|fuel]]; try lia. pose proof (half_step step k S SK) as (H1 & H2).
    destruct (Rlt_dec (Rabs (needed - rel g) / needed) (1 / 1000)) as [W|W].
    { cbn [gap_search]. destruct (Rlt_dec _ _); [|contradiction]. split; [exact G | left; exact W]. }
    rewrite search_step_eq by exact W.
    assert (SECOND : forall inc, ~ flips g inc -> found (gap_search (Datatypes.S fuel) needed rel (moved g step inc) step inc)).
    { intros inc' NF. destruct (same_close g step inc' G S C W NF) as (T1 & T2).
      assert (G' : residual <= moved g step inc') by (apply moved_residual; lra). set (g' := moved g step inc') in *.
      destruct (Rlt_dec (Rabs (needed - rel g') / needed) (1 / 1000)) as [W'|W'].
      { cbn [gap_search]. destruct (Rlt_dec _ _); [|contradiction]. split; [exact G' | left; exact W']. }
      rewrite search_step_eq by exact W'. destruct inc'.
      - assert (F : needed < rel g').
        { destruct (not_within g' G' W') as [Q|Q]; [exact Q|]. pose proof (below g' G' Q). lra. }
        destruct (Rlt_dec needed (rel g')); [|contradiction].
        apply IH; [apply moved_residual; lra | exact H1 | exact H2 | apply (turn_close g' step true); assumption | lia].
      - assert (F : rel g' < needed).
        { destruct (not_within g' G' W') as [Q|Q]; [|exact Q]. pose proof (above g' G' Q). lra. }
        destruct (Rlt_dec (rel g') needed); [|contradiction].
        apply IH; [apply moved_residual; lra | exact H1 | exact H2 | apply (turn_close g' step false); assumption | lia]. }
    destruct inc; [destruct (Rlt_dec needed (rel g)) as [Q|Q] | destruct (Rlt_dec (rel g) needed) as [Q|Q]].
    - apply IH; [apply moved_residual; lra | exact H1 | exact H2 | apply (turn_close g step true); assumption | lia].
    - apply (SECOND true). exact Q.
    - apply IH; [apply moved_residual; lra | exact H1 | exact H2 | apply (turn_close g step false); assumption | lia].
    - apply (SECOND false). exact Q.
  Qed.

  Lemma search_climbs : forall j fuel g, residual <= g -> g <= goal -> goal - g <= INR j * search_step -> (j + 16 <= fuel)%nat ->
    found (gap_search fuel needed rel g search_step true).
  Proof.
    pose proof residual_pos as RP. induction j as [|j IH]; intros fuel g G L H FU.
    - simpl in H. assert (E : g = goal) by lra. subst g. destruct fuel as [|fuel]; [lia|].
      cbn [gap_search]. destruct (Rlt_dec (Rabs (needed - rel goal) / needed) (1 / 1000)) as [W|W].
      + split; [exact G | left; exact W].
      + exfalso. destruct (not_within goal G W); lra.
    - destruct fuel as [|fuel]; [lia|].
      destruct (Rlt_dec (Rabs (needed - rel g) / needed) (1 / 1000)) as [W|W].
      { cbn [gap_search]. destruct (Rlt_dec _ _); [|contradiction]. split; [exact G | left; exact W]. }
      rewrite search_step_eq by exact W. destruct (Rlt_dec needed (rel g)) as [Q|Q].
      { pose proof (above g G Q). lra. }
      cbn [moved]. rewrite S_INR in H. unfold search_step in *. destruct (Rle_dec (g + 1 / 1000) goal) as [C|C].
      + apply IH; try lra. lia.
      + apply search_closes with (k := 8%nat); try lia; try (unfold residual in *; lra). apply Rabs_le. lra.
  Qed.
End Search.

Lemma round_to_close : forall x d, 0 <= x -> Rabs (round_to x d - x) <= / 10 ^ d / 2.
Proof.
  intros x d X. unfold round_to. assert (T : 0 < 10 ^ d) by (apply pow_lt; lra).
  destruct (nround_bounds (x * 10 ^ d)) as (A & B); [apply Rmult_le_pos; lra|].
  set (n := INR (nround (x * 10 ^ d))) in *. set (t := 10 ^ d) in *.
  replace (n / t - x) with ((n - x * t) / t) by (field; lra).
  assert (I : 0 < / t) by (apply Rinv_0_lt_compat; exact T). apply Rabs_le. split; unfold Rdiv; nra.
Qed.

(** ** Growing the gap against saturation *)

Lemma saturation_loop_spec : forall fuel density target g, exists k, (k <= fuel)%nat /\
  saturation_loop fuel density target g = g * (3 / 2) ^ k /\
  (density (g * (3 / 2) ^ k) <= target \/ k = fuel) /\
  (forall i, (i < k)%nat -> target < density (g * (3 / 2) ^ i)).
Proof.
  induction fuel as [|fuel IH]; intros density target g; cbn [saturation_loop].
  - exists 0%nat. split; [lia|]. split; [simpl; ring|]. split; [right; reflexivity | intros i I; lia].
  - destruct (Rle_dec (density g) target) as [L|L].
    + exists 0%nat. split; [lia|]. split; [simpl; ring|]. split; [left; simpl; rewrite Rmult_1_r; exact L | intros i I; lia].
    + destruct (IH density target (g * (3 / 2))) as (k & K & E & ST & P). exists (S k).
      assert (X : forall i, g * (3 / 2) * (3 / 2) ^ i = g * (3 / 2) ^ S i) by (intro i; simpl; ring).
      rewrite X in E, ST. split; [lia|]. split; [exact E|]. split; [destruct ST as [ST|ST]; [left; exact ST | right; lia]|].
      intros [|i] I; [simpl; rewrite Rmult_1_r; lra|]. rewrite <- X. apply P. lia.
Qed.

(** ** Bisection *)

Lemma sign_step : forall x m h, x * h <= 0 -> 0 < x * m -> m * h <= 0.
Proof.
  intros x m h A B. destruct (Rle_dec (m * h) 0) as [C|C]; [exact C|]. exfalso.
  assert (D : 0 < (x * m) * (m * h)) by (apply Rmult_lt_0_compat; lra).
  assert (E : 0 <= m * m) by apply Rle_0_sqr. assert ((x * h) * (m * m) <= 0) by nra. lra.
Qed.

Lemma bisect_spec : forall fuel factor wanted lo hi, lo <= hi -> (factor lo - wanted) * (factor hi - wanted) <= 0 ->
  let r := bisect fuel factor wanted lo hi (factor lo) in
  lo <= r <= hi /\
  (Rabs (factor r - wanted) / wanted < 1 / 1000 \/
   exists a b, lo <= a /\ a <= b /\ b <= hi /\ r = (a + b) / 2 /\ (factor a - wanted) * (factor b - wanted) <= 0 /\
     (b - a <= residual / 10 \/ b - a <= (hi - lo) / 2 ^ fuel)).
Proof.
  induction fuel as [|k IH]; intros factor wanted lo hi L SG0; cbn [bisect].
  - split; [lra|]. right. exists lo, hi. repeat split; try lra; try (right; simpl; lra).
  - destruct (Rlt_dec (residual / 10) (hi - lo)) as [W|W].
    + set (mid := (lo + hi) / 2). assert (M : lo <= mid <= hi) by (unfold mid; lra).
      destruct (Rlt_dec (Rabs (factor mid - wanted) / wanted) (1 / 1000)) as [T|T]; [split; [exact M | left; exact T]|].
      assert (P2 : 0 < 2 ^ k) by (apply pow_lt; lra).
      destruct (Rle_dec ((factor lo - wanted) * (factor mid - wanted)) 0) as [Q|Q].
      * destruct (IH factor wanted lo mid) as (I1 & I2); [lra | exact Q|]. split; [lra|].
        destruct I2 as [I2|(a & b & A & AB & B & E & SG & WD)]; [left; exact I2|]. right. exists a, b.
        repeat split; try lra. destruct WD as [WD|WD]; [left; exact WD|]. right.
        replace ((hi - lo) / 2 ^ S k) with ((mid - lo) / 2 ^ k) by (unfold mid; simpl; field; lra). exact WD.
      * assert (Q' : (factor mid - wanted) * (factor hi - wanted) <= 0) by (apply sign_step with (factor lo - wanted); [exact SG0 | lra]).
        destruct (IH factor wanted mid hi) as (I1 & I2); [lra | exact Q'|]. split; [lra|].
        destruct I2 as [I2|(a & b & A & AB & B & E & SG & WD)]; [left; exact I2|]. right. exists a, b.
        repeat split; try lra. destruct WD as [WD|WD]; [left; exact WD|]. right.
        replace ((hi - lo) / 2 ^ S k) with ((hi - mid) / 2 ^ k) by (unfold mid; simpl; field; lra). exact WD.
    + split; [lra|]. right. exists lo, hi. repeat split; try lra; try (left; lra).
Qed.

Lemma closest_point_spec : forall l factor wanted best error, error = Rabs (factor best - wanted) ->
  let r := closest_point factor wanted best error l in
  (r = best \/ In r l) /\ Rabs (factor r - wanted) <= error /\
  forall x, In x l -> Rabs (factor r - wanted) <= Rabs (factor x - wanted).
Proof.
  induction l as [|x l IH]; intros factor wanted best error E; cbn [closest_point].
  - split; [left; reflexivity|]. split; [lra | intros x []].
  - destruct (Rlt_dec (Rabs (factor x - wanted)) error) as [L|L].
    + destruct (IH factor wanted x _ eq_refl) as (A & B & C).
      split; [right; destruct A as [-> |A]; [left; reflexivity | right; exact A]|]. split; [lra|].
      intros y [<-|I]; [exact B | apply C, I].
    + destruct (IH factor wanted best error E) as (A & B & C).
      split; [destruct A as [A|A]; [left; exact A | right; right; exact A]|]. split; [exact B|].
      intros y [<-|I]; [lra | apply C, I].
Qed.
