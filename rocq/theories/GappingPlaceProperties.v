(** Specification: how high on its column a gap stands, and which gaps fit. *)
From Coq Require Import ZArith QArith Qabs List Bool String Lia Lqa Arith.
From Verif Require Import Base QAux UtilsNumModel UtilsNumProofs GappingModel GappingProofs
  GappingProperties.
Import ListNotations.
Open Scope Q_scope.

(** ** Vocabulary *)

(** Half a nanometre: positions are rounded to the nanometre. *)
Definition half_nanometre : Q := 1 # 2000000000.

(** How far over the middle of a column of that height the gap of index [k] of [n] evenly spread ones
    stands. *)
Definition even_height (height : Q) (n k : nat) : Q :=
  height * (2 * count k + 1 - count n) / (2 * (count n + 1)).

(** What the ground gaps and the spacers of a gapping are, in the order they go down the column. *)
Definition going (l : list gap) : list gap :=
  (filter (fun g => kind_eqb (g_kind g) Subtractive) l ++
   filter (fun g => kind_eqb (g_kind g) Additive) l)%list.

Lemma down_some : forall b l c rest r, b_family b = Other -> unplaced l -> winding b c rest ->
  goes_down b l -> process_gap b l = Ok (true, r) ->
  exists u v, r = (u ++ v)%list /\ wound b c (going l) = Some u /\
    lay b (returned (of_kind Residual l) rest) = Some v.
Proof.
  intros b l c rest r F U W D H. rewrite (process_unplaced b l F U) in H.
  rewrite (distribute_down b l c rest W D) in H. apply ok_pair, stored_true in H.
  change (of_kind Subtractive l ++ of_kind Additive l)%list with (going l) in H.
  destruct (wound b c (going l)) as [u|] eqn:E; [|discriminate].
  destruct (lay b (returned (of_kind Residual l) rest)) as [v|] eqn:V; [|discriminate].
  exists u, v. split; [congruence|]. split; reflexivity.
Qed.

(** ** C158: the height of the gaps *)

(** A single ground gap lies in one half of the core: it begins at the mating plane, in the middle of
    the column, within half a nanometre. *)
Theorem C158_ground : forall b l c rest r g, b_family b = Other -> unplaced l -> winding b c rest ->
  goes_down b l -> going l = [g] -> process_gap b l = Ok (true, r) ->
  exists x p d, nth_error r 0 = Some x /\ g_at x = Some p /\ g_normal x = Some d /\
    (g_length g < c_height c ->
       Qabs (py p - g_length g / 2 - py (c_at c)) <= half_nanometre) /\
    (c_height c <= g_length g -> py p == py (c_at c)) /\
    Qabs (d - (c_height c - g_length g) / 2) <= half_nanometre.
Proof.
  intros b l c rest r g F U W D G H. destruct (down_some b l c rest r F U W D H) as (u & v & E & WO & _).
  rewrite G in WO. apply wound_some in WO as [L N]. destruct (N 0%nat g eq_refl) as (o & e & A & O & E1 & _).
  subst r. exists (standing b c g o e). do 2 eexists.
  split; [rewrite nth_error_app1; [exact A|rewrite L; cbn; lia]|].
  split; [reflexivity|]. split; [reflexivity|]. cbn [py].
  unfold first_offset, first_clearance, first_length, pitch in *. cbn [List.length Nat.eqb] in *.
  rewrite count_0 in O.
  split; [|split].
  - intro S. apply lt_bool_true in S. rewrite S in O.
    pose proof (round_bounds (g_length g / 2)) as B. unfold tick in B.
    apply Qabs_Qle_condition. unfold half_nanometre. lra.
  - intro S. apply lt_bool_false in S. rewrite S in O. lra.
  - pose proof (round_bounds (c_height c / 2 - g_length g / 2)) as B. unfold tick in B.
    assert (X : (c_height c - g_length g) / 2 == c_height c / 2 - g_length g / 2) by field.
    apply Qabs_Qle_condition. unfold half_nanometre. rewrite X. lra.
Qed.

Lemma count_pos : forall n, 0 < count n + 1.
Proof. intro n. pose proof (count_nonneg n). lra. Qed.

Lemma chunk_bounds : forall c n, Qabs (chunk_of c n - c_height c / (count n + 1)) <= tick.
Proof. intros. apply round_near. Qed.

Lemma count_lt : forall k n, (k < n)%nat -> count k + 1 <= count n.
Proof.
  intros k n H. rewrite <- count_S. unfold count. rewrite <- Zle_Qle. lia.
Qed.

(** A product with a number of known sign keeps an interval. *)
Lemma scaled_error : forall x m e, Qabs x <= e -> Qabs (x * m) <= e * Qabs m.
Proof.
  intros x m e H. rewrite Qabs_Qmult. apply Qmult_le_compat_r; [exact H|apply Qabs_nonneg].
Qed.

Lemma offset_error : forall c l k, (2 <= List.length l)%nat -> (k < List.length l)%nat ->
  let n := List.length l in
  Qabs (first_offset c l + count k * chunk_of c n - even_height (c_height c) n k)
    <= (count n + 1) / 2 * half_nanometre.
Proof.
  intros c l k N K n. unfold first_offset. fold n in N, K.
  replace (Nat.eqb (List.length l) 1) with false by (symmetry; apply Nat.eqb_neq; lia). fold n.
  set (ch := chunk_of c n). set (q := c_height c / (count n + 1)).
  pose proof (count_pos n) as P.
  assert (C : Qabs (ch - q) <= tick) by apply chunk_bounds.
  set (m := count k - (count n - 1) / 2).
  assert (M : Qabs m <= (count n - 1) / 2).
  { apply Qabs_Qle_condition. unfold m. pose proof (count_lt k n K). pose proof (count_nonneg k).
    assert (X : (count n - 1) / 2 == (count n - 1) * (1 # 2)) by field. rewrite X. lra. }
  set (r := roundFloat (- ch * (count n - 1) / 2) 9).
  assert (R : Qabs (r - (- ch * (count n - 1) / 2)) <= tick) by apply round_near.
  assert (E : r + count k * ch - even_height (c_height c) n k ==
              (r - (- ch * (count n - 1) / 2)) + (ch - q) * m).
  { unfold even_height, q, m. field. lra. }
  rewrite E.
  apply Qle_trans with (Qabs (r - (- ch * (count n - 1) / 2)) + Qabs ((ch - q) * m)); [apply Qabs_triangle|].
  pose proof (scaled_error (ch - q) m tick C) as S.
  assert (S2 : tick * Qabs m <= tick * ((count n - 1) / 2)).
  { rewrite !(Qmult_comm tick). apply Qmult_le_compat_r; [exact M|unfold tick; lra]. }
  assert (X : (count n + 1) / 2 * half_nanometre == tick + tick * ((count n - 1) / 2)).
  { unfold half_nanometre, tick. field. }
  rewrite X. lra.
Qed.

(** Several gaps are spread evenly: the one of index [k] stands at its place to the nanometre, give or
    take a rounding for every second gap. *)
Theorem C158_spread : forall b l c rest r k g, b_family b = Other -> unplaced l -> winding b c rest ->
  goes_down b l -> (2 <= List.length (going l))%nat -> nth_error (going l) k = Some g ->
  process_gap b l = Ok (true, r) ->
  exists x p, nth_error r k = Some x /\ asked x = asked g /\ g_at x = Some p /\
    Qabs (py p - py (c_at c) - even_height (c_height c) (List.length (going l)) k)
      <= (count (List.length (going l)) + 1) / 2 * half_nanometre.
Proof.
  intros b l c rest r k g F U W D N G H. destruct (down_some b l c rest r F U W D H) as (u & v & E & WO & _).
  apply wound_some in WO as [L A]. destruct (A k g G) as (o & e & A1 & O & _).
  assert (K : (k < List.length (going l))%nat) by (apply nth_error_Some; congruence).
  subst r. exists (standing b c g o e). eexists.
  split; [rewrite nth_error_app1; [exact A1|rewrite L; exact K]|].
  split; [reflexivity|]. split; [reflexivity|]. cbn [py].
  pose proof (offset_error c (going l) k N K) as B. cbv zeta in B.
  assert (X : py (c_at c) + o - py (c_at c) == o) by ring. rewrite X, O. exact B.
Qed.

Lemma near_end_even : forall h n k, 0 <= h -> (k < n)%nat ->
  h / 2 - Qabs (even_height h n k) == h / (count n + 1) * (1 + near_end n k).
Proof.
  intros h n k H K. pose proof (count_pos n) as P. unfold even_height, near_end.
  pose proof (count_lt k n K) as KL.
  assert (D : 0 <= h / (2 * (count n + 1))).
  { apply Qle_shift_div_l; lra. }
  assert (E : h * (2 * count k + 1 - count n) / (2 * (count n + 1)) ==
              h / (2 * (count n + 1)) * (2 * count k + 1 - count n)) by (field; lra).
  rewrite E, Qabs_Qmult, (Qabs_pos _ D).
  destruct (Z_le_gt_dec (Z.of_nat k) (Z.of_nat n - 1 - Z.of_nat k)) as [L|L].
  - rewrite Z.min_l by exact L. fold (count k).
    assert (X : 2 * count k + 1 - count n <= 0).
    { unfold count. rewrite <- (inject_Z_mult 2), <- (inject_Z_plus _ 1).
      assert (Y : inject_Z (2 * Z.of_nat k + 1) <= inject_Z (Z.of_nat n)) by (rewrite <- Zle_Qle; lia).
      lra. }
    rewrite Qabs_neg by exact X. field. lra.
  - rewrite Z.min_r by lia.
    assert (Z1 : inject_Z (Z.of_nat n - 1 - Z.of_nat k) == count n - 1 - count k).
    { unfold Z.sub. rewrite !inject_Z_plus, !inject_Z_opp. unfold count. ring. }
    rewrite Z1.
    assert (X : 0 <= 2 * count k + 1 - count n).
    { unfold count. rewrite <- (inject_Z_mult 2), <- (inject_Z_plus _ 1).
      assert (Y : inject_Z (Z.of_nat n) <= inject_Z (2 * Z.of_nat k + 1)) by (rewrite <- Zle_Qle; lia).
      lra. }
    rewrite Qabs_pos by exact X. field. lra.
Qed.

Lemma near_end_half : forall n k, (k < n)%nat -> near_end n k <= (count n - 1) / 2.
Proof.
  intros n k K. unfold near_end, count.
  assert (Y : inject_Z (2 * Z.min (Z.of_nat k) (Z.of_nat n - 1 - Z.of_nat k)) <= inject_Z (Z.of_nat n - 1))
    by (rewrite <- Zle_Qle; lia).
  rewrite inject_Z_mult in Y. unfold Z.sub in *. rewrite inject_Z_plus in Y.
  change (inject_Z 2) with 2 in Y. change (inject_Z (- (1))) with (- (1)) in Y.
  apply Qle_shift_div_l; lra.
Qed.

Lemma clearance_error : forall c l k, 0 <= c_height c -> (2 <= List.length l)%nat -> (k < List.length l)%nat ->
  let n := List.length l in
  Qabs (first_clearance c l + pitch c l * near_end n k -
        (c_height c / 2 - Qabs (even_height (c_height c) n k) - first_length l / 2))
    <= (count n + 3) / 2 * half_nanometre.
Proof.
  intros c l k H N K n. unfold first_clearance, pitch. fold n in N, K |- *.
  replace (Nat.eqb n 1) with false by (symmetry; apply Nat.eqb_neq; lia).
  set (ch := chunk_of c n). set (q := c_height c / (count n + 1)).
  assert (C : Qabs (ch - q) <= tick) by apply chunk_bounds.
  set (m := near_end n k). set (f := first_length l / 2).
  assert (R : Qabs (roundFloat (ch - f) 9 - (ch - f)) <= tick) by apply round_near.
  set (r := roundFloat (ch - f) 9) in *.
  assert (M0 : 0 <= m) by (apply near_end_nonneg; exact K).
  assert (M1 : m <= (count n - 1) / 2) by (apply near_end_half; exact K).
  assert (E : r + ch * m - (c_height c / 2 - Qabs (even_height (c_height c) n k) - f) ==
              (r - (ch - f)) + (ch - q) * (1 + m)).
  { rewrite (near_end_even (c_height c) n k H K). fold q m. ring. }
  rewrite E.
  apply Qle_trans with (Qabs (r - (ch - f)) + Qabs ((ch - q) * (1 + m))); [apply Qabs_triangle|].
  pose proof (scaled_error (ch - q) (1 + m) tick C) as S. rewrite (Qabs_pos (1 + m)) in S by lra.
  assert (S2 : tick * (1 + m) <= tick * (1 + (count n - 1) / 2)).
  { rewrite !(Qmult_comm tick). apply Qmult_le_compat_r; [lra|unfold tick; lra]. }
  assert (X : (count n + 3) / 2 * half_nanometre == tick + tick * (1 + (count n - 1) / 2)).
  { unfold half_nanometre, tick. field. }
  rewrite X. lra.
Qed.

(** The distance told for a spread gap is the one from the end of the gap to the closest end of the
    column, if the gap is as long as the first one. *)
Theorem C158_distance : forall b l c rest r k g first, b_family b = Other -> unplaced l ->
  winding b c rest -> goes_down b l -> 0 <= c_height c ->
  (2 <= List.length (going l))%nat -> nth_error (going l) 0 = Some first ->
  nth_error (going l) k = Some g -> g_length g == g_length first ->
  process_gap b l = Ok (true, r) ->
  exists x d, nth_error r k = Some x /\ g_normal x = Some d /\
    Qabs (d - (c_height c / 2 - Qabs (even_height (c_height c) (List.length (going l)) k) - g_length g / 2))
      <= (count (List.length (going l)) + 3) / 2 * half_nanometre.
Proof.
  intros b l c rest r k g first F U W D HH N G0 G LE H.
  destruct (down_some b l c rest r F U W D H) as (u & v & E & WO & _).
  apply wound_some in WO as [L A]. destruct (A k g G) as (o & e & A1 & _ & E1 & _).
  assert (K : (k < List.length (going l))%nat) by (apply nth_error_Some; congruence).
  subst r. exists (standing b c g o e), e.
  split; [rewrite nth_error_app1; [exact A1|rewrite L; exact K]|]. split; [reflexivity|].
  pose proof (clearance_error c (going l) k HH N K) as B. cbv zeta in B.
  assert (FL : first_length (going l) == g_length g).
  { destruct (going l) as [|y t]; [discriminate|]. cbn in G0 |- *. rewrite LE. replace first with y by congruence. reflexivity. }
  rewrite E1, <- FL. exact B.
Qed.

(** For a longer one it is the distance of a gap of the length of the first. *)
Definition leg : column := Column Central Round (Point 0 0 0) 4 1 1 1.
Definition pot : body := Body Other [leg] (Some 1).

Lemma pot_winding : winding pot leg [].
Proof. apply (winding_central pot [] leg [] eq_refl); [constructor|reflexivity]. Qed.

Theorem C158_distance_refuted : exists r x d p,
  process_gap pot [bare Subtractive (1 # 10); bare Subtractive 1; bare Subtractive (1 # 10)] = Ok (true, r) /\
  nth_error r 1 = Some x /\ g_length x == 1 /\ g_at x = Some p /\ py p == 0 /\ g_normal x = Some d /\
  ~ d == 4 / 2 - 1 / 2 /\ d == 4 / 2 - (1 # 10) / 2.
Proof.
  do 4 eexists. split; [vm_compute; reflexivity|]. split; [reflexivity|]. split; [reflexivity|].
  split; [reflexivity|]. split; [reflexivity|]. split; [reflexivity|]. split; [intro H; vm_compute in H; discriminate|].
  vm_compute. reflexivity.
Qed.

(** ** C159: which gaps fit *)

(** A single gap no longer than the winding column, or several equal ones that fit into it together,
    are accepted, if the residual gaps fit too. *)
Theorem C159_accepted : forall b l c rest first, b_family b = Other -> unplaced l -> winding b c rest ->
  goes_down b l -> 0 < c_height c -> nth_error (going l) 0 = Some first ->
  count (List.length (going l)) * g_length first <= c_height c ->
  (forall x, In x rest -> (5 # 1000000) <= c_height x) ->
  (forall x g, In x rest -> In g l -> g_kind g = Residual -> g_length g <= c_height x) ->
  exists r, process_gap b l = Ok (true, r).
Proof.
  intros b l c rest first F U W D H0 G FIT R1 R2.
  rewrite (process_unplaced b l F U), (distribute_down b l c rest W D).
  change (of_kind Subtractive l ++ of_kind Additive l)%list with (going l).
  assert (FL : first_length (going l) = g_length first).
  { destruct (going l) as [|y t]; [discriminate|]. cbn in G |- *. congruence. }
  assert (N : (1 <= List.length (going l))%nat).
  { destruct (going l); [discriminate|]. cbn. lia. }
  set (n := List.length (going l)) in *.
  pose proof (count_pos n) as P.
  assert (CH : 0 <= chunk_of c n).
  { apply round_nonneg. apply Qle_shift_div_l; lra. }
  destruct (wound_accepts b c (going l)) as [u E].
  { unfold pitch. fold n. destruct (Nat.eqb n 1); [lra|exact CH]. }
  { unfold first_clearance. fold n. rewrite FL. destruct (Nat.eqb n 1) eqn:E1.
    - apply Nat.eqb_eq in E1. rewrite E1 in FIT. change (count 1) with 1 in FIT.
      apply round_nonneg.
      assert (X : c_height c / 2 - g_length first / 2 == (c_height c - g_length first) * (1 # 2)) by field.
      rewrite X. lra.
    - apply Nat.eqb_neq in E1. apply round_not_negative.
      pose proof (chunk_bounds c n) as B. apply Qabs_Qle_condition in B as [B _].
      assert (C2 : 2 <= count n).
      { unfold count. change 2 with (inject_Z 2). rewrite <- Zle_Qle. lia. }
      assert (X : g_length first / 2 < c_height c / (count n + 1)).
      { assert (Y : g_length first <= c_height c / count n).
        { apply Qle_shift_div_l; [lra|]. rewrite Qmult_comm. exact FIT. }
        assert (Z : c_height c / count n / 2 < c_height c / (count n + 1)).
        { assert (Z1 : c_height c / (count n + 1) - c_height c / count n / 2 ==
                       c_height c * (count n - 1) / (2 * count n * (count n + 1))) by (field; lra).
          assert (Z2 : 0 < c_height c * (count n - 1) / (2 * count n * (count n + 1))).
          { apply Qlt_shift_div_l; [|rewrite Qmult_0_l; nra]. nra. }
          lra. }
        assert (Y2 : g_length first / 2 == g_length first * (1 # 2)) by field.
        assert (Y3 : c_height c / count n / 2 == c_height c / count n * (1 # 2)) by (field; lra).
        rewrite Y2. rewrite Y3 in Z. lra. }
      lra. }
  rewrite E.
  destruct (lay_spec b (returned (of_kind Residual l) rest)) as [[_ V]|[V _]].
  - rewrite V. eexists. reflexivity.
  - exfalso. apply V. unfold returned. destruct (Nat.ltb _ _).
    + apply Forall_forall. intros x I. apply in_map_iff in I as (y & <- & I). apply R1. exact I.
    + apply Forall_forall. intros [x [k q]] I. pose proof (in_combine_l _ _ _ _ I) as I1.
      pose proof (in_combine_r _ _ _ _ I) as I2. apply in_map_iff in I2 as (g & E2 & I2).
      apply filter_In in I2 as [I2 I3]. apply kind_eqb_spec in I3.
      unfold shorter. cbn. replace q with (g_length g) by congruence. apply R2; assumption.
Qed.

(** What is accepted: a single gap up to the height of the column; of several the first is up to
    twice the share of the column each has; residual gaps up to the height of their column. *)
Theorem C159_limits_partial : forall b l c rest r first, b_family b = Other -> unplaced l ->
  winding b c rest -> goes_down b l -> nth_error (going l) 0 = Some first ->
  process_gap b l = Ok (true, r) ->
  (List.length (going l) = 1%nat -> g_length first <= c_height c + 2 * half_nanometre) /\
  ((2 <= List.length (going l))%nat ->
     g_length first <= 2 * (c_height c / (count (List.length (going l)) + 1)) + 4 * half_nanometre) /\
  ((List.length rest <= List.length (filter (fun g => kind_eqb (g_kind g) Residual) l))%nat ->
     Forall2 (fun x g => g_length g <= c_height x) rest
       (firstn (List.length rest) (filter (fun g => kind_eqb (g_kind g) Residual) l))).
Proof.
  intros b l c rest r first F U W D G H.
  destruct (down_some b l c rest r F U W D H) as (u & v & E & WO & LY).
  apply wound_some in WO as [L A]. destruct (A 0%nat first G) as (o & e & _ & _ & E1 & E0).
  assert (FL : first_length (going l) = g_length first).
  { destruct (going l) as [|y t]; [discriminate|]. cbn in G |- *. congruence. }
  assert (N : (0 < List.length (going l))%nat) by (apply nth_error_Some; congruence).
  rewrite (near_end_0 _ N) in E1.
  assert (C0 : 0 <= first_clearance c (going l)) by lra.
  unfold first_clearance in C0. rewrite FL in C0.
  split; [|split].
  - intro N1. rewrite N1 in C0. cbn [Nat.eqb] in C0.
    pose proof (round_bounds (c_height c / 2 - g_length first / 2)) as B.
    assert (X : c_height c / 2 - g_length first / 2 == (c_height c - g_length first) * (1 # 2)) by field.
    unfold half_nanometre, tick in *. set (y := roundFloat _ 9) in *. lra.
  - intro N2. replace (Nat.eqb (List.length (going l)) 1) with false in C0
      by (symmetry; apply Nat.eqb_neq; lia).
    pose proof (round_bounds (chunk_of c (List.length (going l)) - g_length first / 2)) as B.
    pose proof (chunk_bounds c (List.length (going l))) as B2. apply Qabs_Qle_condition in B2.
    assert (X : g_length first / 2 == g_length first * (1 # 2)) by field.
    unfold half_nanometre, tick in *. lra.
  - intro R. apply lay_some in LY as [S _]. unfold returned, of_kind in S.
    set (given := filter (fun g => kind_eqb (g_kind g) Residual) l) in *.
    replace (Nat.ltb (List.length given) (List.length rest)) with false in S
      by (symmetry; apply Nat.ltb_ge; exact R).
    clear - S R. revert S R. generalize given. clear.
    induction rest as [|c rest IH]; intros [|g t] S R; cbn in *; try constructor; try lia.
    + inversion S; subst. assumption.
    + apply IH; [inversion S; assumption|lia].
Qed.

(** So a single gap may reach beyond the end of the column it is ground off. *)
Theorem C159_inside_refuted : exists r x p, process_gap pot [bare Subtractive 3] = Ok (true, r) /\
  nth_error r 0 = Some x /\ g_at x = Some p /\ g_length x == 3 /\
  py (c_at leg) + c_height leg / 2 < py p + g_length x / 2.
Proof.
  do 3 eexists. split; [vm_compute; reflexivity|]. split; [reflexivity|]. split; [reflexivity|].
  split; [reflexivity|]. vm_compute. reflexivity.
Qed.

(** Spread gaps may overlap and be longer together than the column. *)
Theorem C159_overlap_refuted : exists r x y p q,
  process_gap pot [bare Subtractive 2; bare Subtractive 2; bare Subtractive 2] = Ok (true, r) /\
  nth_error r 0 = Some x /\ nth_error r 1 = Some y /\ g_at x = Some p /\ g_at y = Some q /\
  py q - g_length y / 2 < py p + g_length x / 2 /\
  c_height leg < fold_right Qplus 0 (map g_length r).
Proof.
  do 5 eexists. split; [vm_compute; reflexivity|]. split; [reflexivity|]. split; [reflexivity|].
  split; [reflexivity|]. split; [reflexivity|]. split; vm_compute; reflexivity.
Qed.

(** And all of them but the first may have any length. *)
Theorem C159_length_refuted : forall x, exists r,
  process_gap pot [bare Subtractive 1; bare Subtractive x] = Ok (true, r) /\
  map g_length r = [1; x].
Proof.
  intro x.
  assert (U : unplaced [bare Subtractive 1; bare Subtractive x]) by (repeat constructor).
  assert (D : goes_down pot [bare Subtractive 1; bare Subtractive x])
    by (left; eexists; split; [left; reflexivity|reflexivity]).
  destruct (C159_accepted pot [bare Subtractive 1; bare Subtractive x] leg [] (bare Subtractive 1))
    as [r R]; [reflexivity|exact U|exact pot_winding|exact D|reflexivity|reflexivity| |intros ? []|intros ? ? []|].
  - vm_compute. discriminate.
  - exists r. split; [exact R|].
    destruct (C156_down pot _ leg [] r eq_refl U pot_winding D R) as (u & v & E & _ & M & V & _).
    inversion V; subst. rewrite app_nil_r.
    change (map asked u = [(Subtractive, 1); (Subtractive, x)]) in M.
    destruct u as [|a [|b [|d u]]]; try discriminate. cbn in M |- *. inversion M. congruence.
Qed.

(** ** Witnesses *)

Example C158_ground_witness : exists r x p, process_gap e_core [bare Subtractive (1 # 1000)] = Ok (true, r) /\
  nth_error r 0 = Some x /\ g_at x = Some p /\ py p == 1 # 2000.
Proof.
  do 3 eexists. split; [vm_compute; reflexivity|]. split; [reflexivity|]. split; [reflexivity|].
  vm_compute. reflexivity.
Qed.

Example C158_spread_witness : exists r, process_gap e_core (repeat (bare Subtractive (1 # 1000)) 3) = Ok (true, r) /\
  map (fun g => option_map (fun p => Qred (py p)) (g_at g)) r =
    [Some (-1 # 200); Some 0; Some (1 # 200); Some 0; Some 0] /\
  map (fun g => option_map Qred (g_normal g)) (firstn 3 r) = [Some (9 # 2000); Some (19 # 2000); Some (9 # 2000)].
Proof. eexists. split; [vm_compute; reflexivity|]. split; vm_compute; reflexivity. Qed.

Example C159_accepted_witness : exists r, process_gap e_core [bare Subtractive (1 # 50)] = Ok (true, r) /\
  process_gap e_core [bare Subtractive (3 # 100)] = Ok (false, [bare Subtractive (3 # 100)]).
Proof. eexists. split; vm_compute; reflexivity. Qed.

Print Assumptions C158_ground.
Print Assumptions C158_spread.
Print Assumptions C158_distance.
Print Assumptions C158_distance_refuted.
Print Assumptions C159_accepted.
Print Assumptions C159_limits_partial.
Print Assumptions C159_inside_refuted.
Print Assumptions C159_overlap_refuted.
Print Assumptions C159_length_refuted.
