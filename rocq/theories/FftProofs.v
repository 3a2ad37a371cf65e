(** Lemmas on complex numbers, sums, bit reversal and the loops of the transform. *)
From Coq Require Import Reals List Arith NArith Bool Lia Lra Psatz.
From Verif Require Import Base FftModel.
Import ListNotations.
Open Scope C_scope.

(** * Complex numbers form a ring *)

Lemma Ceq : forall x y, re x = re y -> im x = im y -> x = y.
Proof. intros [a b] [c d] H1 H2. cbn in *. subst. reflexivity. Qed.

Lemma C_ring : ring_theory Czero Cone Cadd Cmul Csub Copp (@eq complex).
Proof. constructor; intros; apply Ceq; cbn; ring. Qed.
Add Ring Cring : C_ring.

Fixpoint Cpow (z : complex) (n : nat) : complex :=
  match n with O => Cone | S m => z * Cpow z m end.
Infix "^" := Cpow : C_scope.

Lemma Cpow_add : forall z n m, z ^ (n + m) = z ^ n * z ^ m.
Proof. intros z n m. induction n as [|n IH]; cbn; [ring|]. rewrite IH. ring. Qed.
Lemma Cpow_mul : forall z n m, z ^ (n * m) = (z ^ n) ^ m.
Proof.
  intros z n m. induction m as [|m IH]; [rewrite Nat.mul_0_r; reflexivity|].
  rewrite Nat.mul_succ_r, Nat.add_comm, Cpow_add, IH. reflexivity.
Qed.
Lemma Cpow_one : forall n, Cone ^ n = Cone.
Proof. induction n as [|n IH]; [reflexivity|]. cbn [Cpow]. rewrite IH. ring. Qed.
Lemma Cpow_1 : forall z, z ^ 1 = z.
Proof. intros z. cbn. ring. Qed.
Lemma Cpow_2 : forall z, z ^ 2 = z * z.
Proof. intros z. cbn. ring. Qed.
Lemma Cpow_mul_base : forall x y n, (x * y) ^ n = x ^ n * y ^ n.
Proof. intros x y n. induction n as [|n IH]; cbn [Cpow]; [ring|]. rewrite IH. ring. Qed.
Lemma Cpow_m1_even : forall n, (- Cone) ^ (2 * n) = Cone.
Proof.
  intros n. rewrite Cpow_mul, Cpow_2. replace (- Cone * - Cone) with Cone by ring. apply Cpow_one.
Qed.

Fixpoint Csum (f : nat -> complex) (n : nat) : complex :=
  match n with O => Czero | S m => Csum f m + f m end.

Lemma Csum_ext : forall f g n, (forall j, (j < n)%nat -> f j = g j) -> Csum f n = Csum g n.
Proof.
  intros f g n H. induction n as [|n IH]; [reflexivity|]. cbn [Csum].
  rewrite IH by (intros; apply H; lia). rewrite H by lia. reflexivity.
Qed.
Lemma Csum_split : forall f n m, Csum f (n + m) = Csum f n + Csum (fun j => f (n + j)%nat) m.
Proof.
  intros f n m. induction m as [|m IH]; cbn [Csum].
  - rewrite Nat.add_0_r. ring.
  - rewrite Nat.add_succ_r. cbn [Csum]. rewrite IH. ring.
Qed.
Lemma Csum_add : forall f g n, Csum (fun j => f j + g j) n = Csum f n + Csum g n.
Proof. intros f g n. induction n as [|n IH]; cbn [Csum]; [ring|]. rewrite IH. ring. Qed.
Lemma Csum_scale : forall c f n, Csum (fun j => c * f j) n = c * Csum f n.
Proof. intros c f n. induction n as [|n IH]; cbn [Csum]; [ring|]. rewrite IH. ring. Qed.
Lemma Csum_first : forall f n, Csum f (S n) = f 0%nat + Csum (fun j => f (S j)) n.
Proof.
  intros f n. replace (S n) with (1 + n)%nat by lia. rewrite Csum_split. cbn [Csum Nat.add]. ring.
Qed.
Lemma Csum_zero : forall n, Csum (fun _ => Czero) n = Czero.
Proof. induction n as [|n IH]; cbn [Csum]; [reflexivity|]. rewrite IH. ring. Qed.

(** The discrete Fourier transform, with [w] for the root of unity. *)
Definition D (n : nat) (w : complex) (y : nat -> complex) (r : nat) : complex :=
  Csum (fun j => y j * w ^ (j * r)) n.

Lemma D_ext : forall n w y z r, (forall j, (j < n)%nat -> y j = z j) -> D n w y r = D n w z r.
Proof. intros n w y z r H. apply Csum_ext. intros j J. rewrite H by exact J. reflexivity. Qed.

(** Splitting by the parity of the frequency. *)
Lemma D_even : forall k w y r, w ^ k = - Cone ->
  D (k + k) w y (2 * r) = D k (w * w) (fun j => y j + y (j + k)%nat) r.
Proof.
  intros k w y r W. unfold D. rewrite Csum_split, <- Csum_add. apply Csum_ext. intros j _.
  rewrite (Nat.add_comm k j).
  replace ((j + k) * (2 * r))%nat with (j * (2 * r) + k * (2 * r))%nat by lia.
  rewrite Cpow_add, (Cpow_mul w k (2 * r)), W, Cpow_m1_even.
  replace (j * (2 * r))%nat with (2 * (j * r))%nat by lia. rewrite Cpow_mul, Cpow_2. ring.
Qed.
Lemma D_odd : forall k w y r, w ^ k = - Cone ->
  D (k + k) w y (2 * r + 1) = D k (w * w) (fun j => (y j - y (j + k)%nat) * w ^ j) r.
Proof.
  intros k w y r W. unfold D. rewrite Csum_split, <- Csum_add. apply Csum_ext. intros j _.
  rewrite (Nat.add_comm k j).
  replace ((j + k) * (2 * r + 1))%nat with (j * (2 * r) + j + (k * (2 * r) + k))%nat by lia.
  replace (j * (2 * r + 1))%nat with (j * (2 * r) + j)%nat by lia.
  rewrite !Cpow_add, (Cpow_mul w k (2 * r)), W, Cpow_m1_even.
  replace (j * (2 * r))%nat with (2 * (j * r))%nat by lia. rewrite Cpow_mul, Cpow_2. ring.
Qed.

(** * Bit reversal *)

Fixpoint rev (p u : nat) : nat :=
  match p with
  | O => 0
  | S q => if Nat.ltb u (2 ^ q) then 2 * rev q u else 2 * rev q (u - 2 ^ q) + 1
  end.

Lemma rev_lt : forall p u, (u < 2 ^ p)%nat -> (rev p u < 2 ^ p)%nat.
Proof.
  induction p as [|p IH]; intros u H; [cbn; lia|]. cbn [rev]. rewrite Nat.pow_succ_r' in *.
  destruct (Nat.ltb_spec u (2 ^ p)) as [L|L].
  - specialize (IH u L). lia.
  - specialize (IH (u - 2 ^ p)%nat ltac:(lia)). lia.
Qed.

Lemma testbit_high : forall p u i, (u < 2 ^ p)%nat -> (p <= i)%nat -> Nat.testbit u i = false.
Proof.
  intros p u i U I. destruct (Nat.eq_dec u 0) as [->|NZ]; [apply Nat.bits_0|].
  apply Nat.bits_above_log2. apply Nat.lt_le_trans with p; [|exact I].
  apply Nat.log2_lt_pow2; lia.
Qed.

Lemma testbit_add_pow : forall p u i, (u < 2 ^ p)%nat ->
  Nat.testbit (u + 2 ^ p) i = if Nat.eqb i p then true else Nat.testbit u i.
Proof.
  intros p u i U.
  assert (LX : (u + 2 ^ p = Nat.lxor u (2 ^ p))%nat).
  { apply Nat.add_nocarry_lxor. apply Nat.bits_inj. intros j. rewrite Nat.land_spec, Nat.bits_0.
    destruct (Nat.eq_dec j p) as [->|N].
    - rewrite (testbit_high p u p U ltac:(lia)). reflexivity.
    - rewrite (Nat.pow2_bits_false p j) by lia. apply andb_false_r. }
  rewrite LX, Nat.lxor_spec. destruct (Nat.eqb_spec i p) as [->|N].
  - rewrite (testbit_high p u p U ltac:(lia)), Nat.pow2_bits_true. reflexivity.
  - rewrite (Nat.pow2_bits_false p i) by lia. apply xorb_false_r.
Qed.

Lemma rev_bits : forall p u i, (u < 2 ^ p)%nat -> (i < p)%nat ->
  Nat.testbit (rev p u) i = Nat.testbit u (p - 1 - i).
Proof.
  induction p as [|p IH]; intros u i U I; [lia|]. cbn [rev]. rewrite Nat.pow_succ_r' in U.
  destruct (Nat.ltb_spec u (2 ^ p)) as [L|L].
  - destruct i as [|i].
    + rewrite Nat.testbit_even_0. symmetry. apply (testbit_high p); [exact L|lia].
    + rewrite Nat.testbit_even_succ by lia. rewrite IH by lia. f_equal. lia.
  - assert (V : (u - 2 ^ p < 2 ^ p)%nat) by lia.
    assert (E : u = (u - 2 ^ p + 2 ^ p)%nat) by lia.
    destruct i as [|i].
    + rewrite Nat.testbit_odd_0, E, testbit_add_pow by exact V.
      destruct (Nat.eqb_spec (S p - 1 - 0) p); [reflexivity|lia].
    + rewrite Nat.testbit_odd_succ by lia. rewrite IH by lia.
      rewrite E at 2. rewrite testbit_add_pow by exact V.
      destruct (Nat.eqb_spec (S p - 1 - S i) p); [lia|]. f_equal. lia.
Qed.

Lemma nat_bits : forall p u v, (u < 2 ^ p)%nat -> (v < 2 ^ p)%nat ->
  (forall i, (i < p)%nat -> Nat.testbit u i = Nat.testbit v i) -> u = v.
Proof.
  intros p u v U V H. apply Nat.bits_inj. intros i. destruct (le_lt_dec p i) as [L|L].
  - rewrite (testbit_high p u), (testbit_high p v) by assumption. reflexivity.
  - apply H. exact L.
Qed.

Lemma rev_rev : forall p u, (u < 2 ^ p)%nat -> rev p (rev p u) = u.
Proof.
  intros p u U. apply (nat_bits p); [apply rev_lt, rev_lt, U|exact U|].
  intros i I. rewrite rev_bits by (try apply rev_lt; assumption). rewrite rev_bits by (try assumption; lia).
  f_equal. lia.
Qed.

(** One of the five swaps: bit [i] comes from [i + s] or [i - s], as the low mask says. *)
Definition source (mlo s i : N) : N := if N.testbit mlo i then (i + s)%N else (i - s)%N.
Definition masks_fit (mhi mlo s i : N) : bool :=
  if N.testbit mlo i then N.testbit mhi (i + s) && (N.ltb i s || negb (N.testbit mlo (i - s)))
  else N.leb s i && N.testbit mlo (i - s) && negb (N.testbit mhi (i + s)).

Lemma swap_spec : forall mhi mlo s b i, masks_fit mhi mlo s i = true ->
  N.testbit (N.lor (N.shiftr (N.land b mhi) s) (N.shiftl (N.land b mlo) s)) i = N.testbit b (source mlo s i).
Proof.
  intros mhi mlo s b i H. unfold masks_fit in H. unfold source.
  rewrite N.lor_spec, N.shiftr_spec by (apply N.le_0_l). rewrite N.land_spec.
  destruct (N.testbit mlo i).
  - apply andb_prop in H. destruct H as [H1 H2]. rewrite H1, andb_true_r.
    destruct (N.ltb_spec i s) as [L|L].
    + rewrite N.shiftl_spec_low by exact L. apply orb_false_r.
    + rewrite N.shiftl_spec_high' by exact L. rewrite N.land_spec.
      cbn [orb] in H2. apply negb_true_iff in H2. rewrite H2, andb_false_r. apply orb_false_r.
  - apply andb_prop in H. destruct H as [H H3]. apply andb_prop in H. destruct H as [H1 H2].
    apply N.leb_le in H1. apply negb_true_iff in H3. rewrite H3, andb_false_r. cbn [orb].
    rewrite N.shiftl_spec_high' by exact H1. rewrite N.land_spec, H2. apply andb_true_r.
Qed.

Lemma below_32 : forall f, forallb f (map N.of_nat (seq 0 32)) = true -> forall i, (i < 32)%N -> f i = true.
Proof.
  intros f H i I. rewrite forallb_forall in H. apply H. apply in_map_iff. exists (N.to_nat i).
  split; [apply N2Nat.id|]. apply in_seq. lia.
Qed.

Definition sources (i : N) : list N :=
  let i4 := if N.ltb i 16 then (i + 16)%N else (i - 16)%N in
  let i3 := source 0x00ff00ff 8 i4 in
  let i2 := source 0x0f0f0f0f 4 i3 in
  let i1 := source 0x33333333 2 i2 in
  [i4; i3; i2; i1; source 0x55555555 1 i1].

Lemma testbit_above : forall c p i, (c < 2 ^ p)%N -> (p <= i)%N -> N.testbit c i = false.
Proof.
  intros c p i C I. destruct (N.eq_dec c 0) as [->|NZ]; [apply N.bits_0|].
  apply N.bits_above_log2. apply N.lt_le_trans with p; [|exact I]. apply N.log2_lt_pow2; lia.
Qed.

Lemma swap8_high : forall b i, (32 <= i)%N ->
  N.testbit (N.lor (N.shiftr (N.land b 0xff00ff00) 8) (N.shiftl (N.land b 0x00ff00ff) 8)) i = false.
Proof.
  intros b i I. rewrite N.lor_spec, N.shiftr_spec by (apply N.le_0_l).
  rewrite N.shiftl_spec_high' by lia. rewrite !N.land_spec.
  rewrite (testbit_above 0xff00ff00 32) by (try reflexivity; lia).
  rewrite (testbit_above 0x00ff00ff 24) by (try reflexivity; lia).
  rewrite !andb_false_r. reflexivity.
Qed.

Lemma reverse_bits_spec : forall b i, (i < 32)%N ->
  N.testbit (reverse_bits b) i = N.testbit b (31 - i).
Proof.
  intros b i I. unfold reverse_bits. cbv zeta.
  assert (FIT : forallb (fun i => match sources i with
    | [i4; i3; i2; i1; i0] =>
        masks_fit 0xff00ff00 0x00ff00ff 8 i4 && masks_fit 0xf0f0f0f0 0x0f0f0f0f 4 i3
        && masks_fit 0xcccccccc 0x33333333 2 i2 && masks_fit 0xaaaaaaaa 0x55555555 1 i1
        && N.eqb i0 (31 - i)
        && (N.ltb i 16 || N.testbit 0xffffffff i)
    | _ => false end) (map N.of_nat (seq 0 32)) = true) by (vm_compute; reflexivity).
  pose proof (below_32 _ FIT i I) as F. cbv beta in F. unfold sources in F. cbv zeta in F.
  repeat (apply andb_prop in F; let G := fresh "G" in destruct F as [F G]).
  apply N.eqb_eq in G0. rewrite <- G0.
  rewrite <- (swap_spec 0xaaaaaaaa 0x55555555 1 b) by exact G1.
  rewrite <- (swap_spec 0xcccccccc 0x33333333 2) by exact G2.
  rewrite <- (swap_spec 0xf0f0f0f0 0x0f0f0f0f 4) by exact G3.
  rewrite <- (swap_spec 0xff00ff00 0x00ff00ff 8) by exact F.
  match goal with |- N.testbit (N.lor (N.shiftr ?x 16) _) i = _ => set (c := x) end.
  rewrite N.lor_spec, N.shiftr_spec by (apply N.le_0_l). rewrite N.land_spec.
  destruct (N.ltb_spec i 16) as [L|L].
  - rewrite N.shiftl_spec_low by exact L. apply orb_false_r.
  - cbn [orb] in G. rewrite G, andb_true_r. unfold c at 1. rewrite swap8_high by lia.
    rewrite N.shiftl_spec_high' by exact L. reflexivity.
Qed.

Lemma reverse_bits_high : forall b i, (32 <= i)%N -> N.testbit (reverse_bits b) i = false.
Proof.
  intros b i I. unfold reverse_bits. cbv zeta. rewrite N.lor_spec, N.shiftr_spec by (apply N.le_0_l).
  rewrite swap8_high by lia. rewrite N.land_spec, (testbit_above 0xffffffff 32) by (try reflexivity; lia).
  apply andb_false_r.
Qed.

Lemma odd_of_nat : forall a, N.odd (N.of_nat a) = Nat.odd a.
Proof.
  intros a. apply eq_true_iff_eq. rewrite N.odd_spec, Nat.odd_spec. split; intros [k K].
  - exists (N.to_nat k). lia.
  - exists (N.of_nat k). lia.
Qed.

Lemma testbit_of_nat : forall i a, N.testbit (N.of_nat a) (N.of_nat i) = Nat.testbit a i.
Proof.
  induction i as [|i IH]; intros a.
  - change (N.of_nat 0) with 0%N. rewrite N.bit0_odd. apply odd_of_nat.
  - rewrite Nat2N.inj_succ, N.testbit_succ_r_div2 by (apply N.le_0_l).
    rewrite <- Nat2N.inj_div2. apply IH.
Qed.

Lemma testbit_to_nat : forall i a, Nat.testbit (N.to_nat a) i = N.testbit a (N.of_nat i).
Proof. intros i a. rewrite <- testbit_of_nat, N2Nat.id. reflexivity. Qed.

Lemma bits_lt : forall p a, (forall i, (p <= i)%nat -> Nat.testbit a i = false) -> (a < 2 ^ p)%nat.
Proof.
  intros p a H. destruct (le_lt_dec (2 ^ p) a) as [L|L]; [exfalso|exact L].
  assert (A : (0 < a)%nat) by (pose proof (Nat.pow_nonzero 2 p); lia).
  assert (P : (p <= Nat.log2 a)%nat).
  { apply Nat.log2_le_pow2; lia. }
  specialize (H _ P). rewrite Nat.bit_log2 in H by lia. discriminate.
Qed.

Lemma partner_rev : forall m a, (m <= 32)%nat -> (a < 2 ^ m)%nat -> partner m a = rev m a.
Proof.
  intros m a M A.
  assert (B : forall i, Nat.testbit (partner m a) i = N.testbit (reverse_bits (N.of_nat a)) (N.of_nat (i + (32 - m)))).
  { intros i. unfold partner. rewrite testbit_to_nat, N.shiftr_spec by (apply N.le_0_l). f_equal. lia. }
  apply (nat_bits m).
  - apply bits_lt. intros i I. rewrite B. apply reverse_bits_high. lia.
  - apply rev_lt. exact A.
  - intros i I. rewrite B, reverse_bits_spec by lia. rewrite rev_bits by assumption.
    rewrite <- testbit_of_nat. f_equal. lia.
Qed.

(** * The loops *)

Lemma upd_same : forall x i v, upd x i v i = v.
Proof. intros x i v. unfold upd. rewrite Nat.eqb_refl. reflexivity. Qed.
Lemma upd_other : forall x i v j, j <> i -> upd x i v j = x j.
Proof. intros x i v j H. unfold upd. destruct (Nat.eqb_spec j i); [contradiction|reflexivity]. Qed.

(** The exchanges apply the bit reversal. *)
Lemma exchange_loop : forall m x t, (m <= 32)%nat -> (t <= 2 ^ m)%nat -> forall i, (i < 2 ^ m)%nat ->
  fold_left (exchange m) (seq 0 t) x i =
  if Nat.ltb i t || Nat.ltb (rev m i) t then x (rev m i) else x i.
Proof.
  intros m x t M. induction t as [|t IH]; intros T i I; [reflexivity|].
  rewrite seq_S, fold_left_app. cbn [fold_left Nat.add].
  specialize (IH ltac:(lia)). set (y := fold_left (exchange m) (seq 0 t) x) in *.
  assert (TT : (t < 2 ^ m)%nat) by lia.
  unfold exchange. rewrite (partner_rev m t M TT).
  pose proof (rev_lt m t TT) as RL. pose proof (rev_rev m t TT) as RR.
  pose proof (rev_rev m i I) as RI. pose proof (rev_lt m i I) as RIL.
  destruct (Nat.ltb_spec t (rev m t)) as [L|L].
  - destruct (Nat.eq_dec i (rev m t)) as [->|N1].
    + rewrite upd_same, (IH t TT), RR.
      rewrite (proj2 (Nat.ltb_ge t t)), (proj2 (Nat.ltb_ge (rev m t) t)) by lia. cbn [orb].
      rewrite (proj2 (Nat.ltb_lt t (S t))) by lia. rewrite orb_true_r. reflexivity.
    + rewrite upd_other by exact N1. destruct (Nat.eq_dec i t) as [->|N2].
      * rewrite upd_same, (IH _ RL), RR.
        rewrite (proj2 (Nat.ltb_ge (rev m t) t)), (proj2 (Nat.ltb_ge t t)) by lia. cbn [orb].
        rewrite (proj2 (Nat.ltb_lt t (S t))) by lia. reflexivity.
      * rewrite upd_other by exact N2. rewrite (IH i I).
        assert (N3 : rev m i <> t) by (intros E; apply N1; rewrite <- E, RI; reflexivity).
        destruct (Nat.ltb_spec i t) as [A|A]; destruct (Nat.ltb_spec i (S t)) as [B|B]; try lia; [reflexivity|].
        cbn [orb]. destruct (Nat.ltb_spec (rev m i) t); destruct (Nat.ltb_spec (rev m i) (S t)); try lia; reflexivity.
  - rewrite (IH i I). destruct (Nat.eq_dec i t) as [->|N2].
    + rewrite (proj2 (Nat.ltb_lt t (S t))) by lia. cbn [orb].
      rewrite (proj2 (Nat.ltb_ge t t)) by lia. cbn [orb].
      destruct (Nat.ltb_spec (rev m t) t); [reflexivity|]. replace (rev m t) with t by lia. reflexivity.
    + destruct (Nat.eq_dec (rev m i) t) as [E|N3].
      * assert (IT : i = rev m t) by (rewrite <- E, RI; reflexivity).
        rewrite E, (proj2 (Nat.ltb_lt t (S t))) by lia. rewrite orb_true_r.
        rewrite (proj2 (Nat.ltb_lt i t)) by lia. cbn [orb]. reflexivity.
      * destruct (Nat.ltb_spec i t) as [A|A]; destruct (Nat.ltb_spec i (S t)) as [B|B]; try lia; [reflexivity|].
        cbn [orb]. destruct (Nat.ltb_spec (rev m i) t); destruct (Nat.ltb_spec (rev m i) (S t)); try lia; reflexivity.
Qed.

(** One position: [M] blocks of [n = 2 k], butterfly of offset [l] from block [i] on. *)
Lemma butterflies_spec : forall k M l T, (l < k)%nat -> forall d i fuel x, (i + d = M)%nat -> (d < fuel)%nat ->
  exists y, butterflies fuel (M * (k + k)) (k + k) k T (l + i * (k + k)) x = Ok y /\
    (forall q, (i <= q)%nat -> (q < M)%nat ->
       y (l + q * (k + k))%nat = x (l + q * (k + k))%nat + x (l + q * (k + k) + k)%nat /\
       y (l + q * (k + k) + k)%nat = (x (l + q * (k + k))%nat - x (l + q * (k + k) + k)%nat) * T) /\
    (forall j, (forall q, (i <= q)%nat -> (q < M)%nat -> j <> (l + q * (k + k))%nat /\ j <> (l + q * (k + k) + k)%nat) ->
       y j = x j).
Proof.
  intros k M l T L. induction d as [|d IH]; intros i fuel x E F.
  - destruct fuel as [|f]; [lia|]. exists x. split; [|split; [intros; lia|reflexivity]].
    cbn [butterflies]. destruct (Nat.ltb_spec (l + i * (k + k)) (M * (k + k))) as [A|A]; [|reflexivity].
    replace i with M in A by lia. lia.
  - destruct fuel as [|f]; [lia|]. cbn [butterflies].
    assert (A1 : (l + i * (k + k) + k < M * (k + k))%nat) by nia.
    destruct (Nat.ltb_spec (l + i * (k + k)) (M * (k + k))) as [A|A]; [|lia].
    destruct (Nat.ltb_spec (l + i * (k + k) + k) (M * (k + k))) as [B|B]; [|lia].
    replace (l + i * (k + k) + (k + k))%nat with (l + S i * (k + k))%nat by lia.
    set (a := (l + i * (k + k))%nat) in *.
    set (x2 := upd (upd x a (x a + x (a + k)%nat)) (a + k) ((x a - x (a + k)%nat) * T)).
    destruct (IH (S i) f x2 ltac:(lia) ltac:(lia)) as [y [Y1 [Y2 Y3]]].
    exists y. split; [exact Y1|]. split.
    + intros q Q1 Q2. destruct (Nat.eq_dec q i) as [->|NQ].
      * fold a. split.
        -- rewrite Y3; [unfold x2; rewrite upd_other by lia; apply upd_same|].
           intros q' Q3 Q4. unfold a. split; nia.
        -- rewrite Y3; [unfold x2; apply upd_same|].
           intros q' Q3 Q4. unfold a. split; nia.
      * destruct (Y2 q ltac:(lia) Q2) as [Z1 Z2].
        assert (O1 : x2 (l + q * (k + k))%nat = x (l + q * (k + k))%nat).
        { unfold x2. rewrite !upd_other; [reflexivity| |]; unfold a; nia. }
        assert (O2 : x2 (l + q * (k + k) + k)%nat = x (l + q * (k + k) + k)%nat).
        { unfold x2. rewrite !upd_other; [reflexivity| |]; unfold a; nia. }
        rewrite O1, O2 in Z1, Z2. split; assumption.
    + intros j J. rewrite Y3 by (intros q Q1 Q2; apply J; lia).
      destruct (J i ltac:(lia) ltac:(lia)) as [J1 J2]. fold a in J1, J2.
      unfold x2. rewrite !upd_other by assumption. reflexivity.
Qed.

Lemma positions_spec : forall k M phi, (0 < k)%nat -> forall todo l T x, (l + todo = k)%nat ->
  exists y, positions todo l (M * (k + k)) (k + k) k phi T x = Ok y /\
    (forall l' q, (l <= l')%nat -> (l' < k)%nat -> (q < M)%nat ->
       y (l' + q * (k + k))%nat = x (l' + q * (k + k))%nat + x (l' + q * (k + k) + k)%nat /\
       y (l' + q * (k + k) + k)%nat =
         (x (l' + q * (k + k))%nat - x (l' + q * (k + k) + k)%nat) * (T * phi ^ (l' - l))) /\
    (forall l' q, (l' < l)%nat -> (q < M)%nat ->
       y (l' + q * (k + k))%nat = x (l' + q * (k + k))%nat /\
       y (l' + q * (k + k) + k)%nat = x (l' + q * (k + k) + k)%nat).
Proof.
  intros k M phi K. induction todo as [|todo IH]; intros l T x E.
  - exists x. split; [reflexivity|]. split; [intros; lia|]. intros; split; reflexivity.
  - cbn [positions].
    destruct (butterflies_spec k M l T ltac:(lia) M 0%nat (S (M * (k + k))) x ltac:(lia) ltac:(nia)) as [y [Y1 [Y2 Y3]]].
    rewrite Nat.mul_0_l, Nat.add_0_r in Y1. rewrite Y1. cbn [bind].
    destruct (IH (S l) (T * phi) y ltac:(lia)) as [z [Z1 [Z2 Z3]]].
    exists z. split; [exact Z1|].
    assert (SAME : forall l' q, (l' < k)%nat -> l' <> l -> (q < M)%nat ->
      y (l' + q * (k + k))%nat = x (l' + q * (k + k))%nat /\
      y (l' + q * (k + k) + k)%nat = x (l' + q * (k + k) + k)%nat).
    { intros l' q L' NL Q. split; apply Y3; intros q' _ Q'; split; intros EQ; apply NL.
      - destruct (Nat.lt_trichotomy q q') as [H|[H|H]]; nia.
      - destruct (Nat.lt_trichotomy q q') as [H|[H|H]]; nia.
      - destruct (Nat.lt_trichotomy q q') as [H|[H|H]]; nia.
      - destruct (Nat.lt_trichotomy q q') as [H|[H|H]]; nia. }
    split.
    + intros l' q L1 L2 Q. destruct (Nat.eq_dec l' l) as [->|NL].
      * destruct (Z3 l q ltac:(lia) Q) as [W1 W2]. destruct (Y2 q ltac:(lia) Q) as [V1 V2].
        rewrite W1, W2, V1, V2. rewrite Nat.sub_diag. cbn [Cpow]. split; [reflexivity|ring].
      * destruct (Z2 l' q ltac:(lia) L2 Q) as [W1 W2]. destruct (SAME l' q L2 NL Q) as [V1 V2].
        rewrite V1, V2 in W1, W2. split; [exact W1|]. rewrite W2.
        replace (l' - l)%nat with (S (l' - S l)) by lia. cbn [Cpow]. ring.
    + intros l' q L1 Q. destruct (Z3 l' q ltac:(lia) Q) as [W1 W2].
      destruct (SAME l' q ltac:(lia) ltac:(lia) Q) as [V1 V2].
      rewrite W1, W2. split; assumption.
Qed.

(** All the stages: every block of [2^p] holds its transform, in reversed order. *)
Lemma stages_spec : forall p fuel M phi x, (p < fuel)%nat -> phi ^ (2 ^ p) = - Cone \/ p = 0%nat ->
  exists y, stages fuel (M * 2 ^ p) (2 ^ p) phi x = Ok y /\
    forall q u, (q < M)%nat -> (u < 2 ^ p)%nat ->
      y (q * 2 ^ p + u)%nat = D (2 ^ p) (phi * phi) (fun j => x (q * 2 ^ p + j)%nat) (rev p u).
Proof.
  induction p as [|p IH]; intros fuel M phi x F W.
  - destruct fuel as [|f]; [lia|]. exists x. split; [reflexivity|].
    intros q u Q U. cbn [Nat.pow] in U. replace u with 0%nat by lia.
    unfold D. cbn [Nat.pow Csum rev Nat.mul Cpow]. ring.
  - destruct fuel as [|f]; [lia|]. destruct W as [W|W]; [|discriminate].
    cbn [stages]. set (k := (2 ^ p)%nat).
    assert (KP : (0 < k)%nat) by (unfold k; pose proof (Nat.pow_nonzero 2 p); lia).
    assert (E2 : (2 ^ S p = k + k)%nat) by (unfold k; rewrite Nat.pow_succ_r'; lia).
    rewrite E2 in *. destruct (Nat.ltb_spec 1 (k + k)) as [_|B]; [|lia].
    assert (DV : Nat.div2 (k + k) = k).
    { replace (k + k)%nat with (2 * k)%nat by lia. apply Nat.div2_double. }
    rewrite DV.
    destruct (positions_spec k M (phi * phi) KP k 0%nat Cone x ltac:(lia)) as [y [Y1 [Y2 _]]].
    rewrite Y1. cbn [bind].
    assert (W2 : (phi * phi) ^ k = - Cone).
    { rewrite Cpow_mul_base, <- Cpow_add. exact W. }
    destruct (IH f (2 * M)%nat (phi * phi) y ltac:(lia)) as [z [Z1 Z2]].
    { left. exact W2. }
    fold k in Z1, Z2. replace (2 * M * k)%nat with (M * (k + k))%nat in Z1 by lia.
    exists z. split; [exact Z1|]. intros q u Q U. cbn [rev]. fold k.
    destruct (Nat.ltb_spec u k) as [L|L].
    + replace (q * (k + k) + u)%nat with ((2 * q) * k + u)%nat by lia.
      rewrite Z2 by lia. rewrite (D_even k (phi * phi)) by exact W2. apply D_ext. intros j J.
      destruct (Y2 j q ltac:(lia) J Q) as [V1 _].
      replace (2 * q * k + j)%nat with (j + q * (k + k))%nat by lia.
      replace (q * (k + k) + j)%nat with (j + q * (k + k))%nat by lia.
      replace (q * (k + k) + (j + k))%nat with (j + q * (k + k) + k)%nat by lia. exact V1.
    + replace (q * (k + k) + u)%nat with ((2 * q + 1) * k + (u - k))%nat by lia.
      rewrite Z2 by lia. rewrite (D_odd k (phi * phi)) by exact W2. apply D_ext. intros j J.
      destruct (Y2 j q ltac:(lia) J Q) as [_ V2].
      replace ((2 * q + 1) * k + j)%nat with (j + q * (k + k) + k)%nat by lia.
      replace (q * (k + k) + j)%nat with (j + q * (k + k))%nat by lia.
      replace (q * (k + k) + (j + k))%nat with (j + q * (k + k) + k)%nat by lia.
      rewrite V2, Nat.sub_0_r. ring.
Qed.

(** * Roots of unity *)

Definition cis (t : R) : complex := mkC (cos t) (- sin t).

Lemma cis_add : forall a b, cis (a + b) = cis a * cis b.
Proof. intros a b. unfold cis. apply Ceq; cbn; [rewrite cos_plus|rewrite sin_plus]; ring. Qed.

Lemma cis_pow : forall t n, cis t ^ n = cis (INR n * t).
Proof.
  intros t n. induction n as [|n IH].
  - cbn [Cpow]. change (INR 0) with 0%R. rewrite Rmult_0_l. unfold cis. rewrite cos_0, sin_0.
    apply Ceq; cbn; ring.
  - cbn [Cpow]. rewrite IH, <- cis_add, S_INR. f_equal. ring.
Qed.

Lemma cis_PI : cis PI = - Cone.
Proof. unfold cis. rewrite cos_PI, sin_PI. apply Ceq; cbn; ring. Qed.

Lemma INR_pow2 : forall m, (INR (2 ^ m) <> 0)%R.
Proof. intros m. apply not_0_INR. apply Nat.pow_nonzero. lia. Qed.

Lemma quarter_root : forall n, (0 < n)%nat -> cis (PI / INR n) ^ n = - Cone.
Proof.
  intros n N. rewrite cis_pow, <- cis_PI. f_equal. field. apply not_0_INR. lia.
Qed.

(** The transform for every power of two the code accepts. *)
Lemma fft_spec : forall m x, (1 <= m)%nat -> (m <= 31)%nat ->
  exists y, fft (2 ^ m) x = Ok y /\
    forall r, (r < 2 ^ m)%nat -> y r = D (2 ^ m) (cis (2 * PI / INR (2 ^ m))) x r.
Proof.
  intros m x M1 M2. unfold fft.
  assert (SZ : N.to_nat (N.modulo (N.of_nat (2 ^ m)) 4294967296) = (2 ^ m)%nat).
  { rewrite N.mod_small; [apply Nat2N.id|].
    assert (P : N.of_nat (2 ^ m) = (2 ^ N.of_nat m)%N).
    { clear. induction m as [|m IH]; [reflexivity|].
      rewrite Nat.pow_succ_r', Nat2N.inj_mul, IH, (Nat2N.inj_succ m), N.pow_succ_r by (apply N.le_0_l). reflexivity. }
    rewrite P. change 4294967296%N with (2 ^ 32)%N. apply N.pow_lt_mono_r; lia. }
  rewrite SZ. cbv zeta.
  assert (P2 : (2 <= 2 ^ m)%nat).
  { apply Nat.le_trans with (2 ^ 1)%nat; [reflexivity|]. apply Nat.pow_le_mono_r; lia. }
  destruct (Nat.ltb_spec (2 ^ m) 2) as [B|_]; [lia|].
  fold (cis (PI / INR (2 ^ m))). set (phi := cis (PI / INR (2 ^ m))).
  assert (PL : (m < S (2 ^ m))%nat) by (pose proof (Nat.pow_gt_lin_r 2 m ltac:(lia)); lia).
  destruct (stages_spec m (S (2 ^ m)) 1 phi x PL) as [y [Y1 Y2]].
  { left. apply quarter_root. lia. }
  rewrite Nat.mul_1_l in Y1. rewrite Y1. cbn [bind].
  eexists. split; [reflexivity|]. intros r R. rewrite Nat.log2_pow2 by lia.
  rewrite exchange_loop by (try lia; exact R).
  rewrite (proj2 (Nat.ltb_lt r (2 ^ m))) by exact R. cbn [orb].
  specialize (Y2 0%nat (rev m r) ltac:(lia) (rev_lt m r R)). rewrite Nat.mul_0_l, Nat.add_0_l in Y2.
  rewrite Y2, rev_rev by exact R.
  replace (phi * phi) with (cis (2 * PI / INR (2 ^ m))).
  - reflexivity.
  - unfold phi. rewrite <- cis_add. f_equal. field. apply INR_pow2.
Qed.
