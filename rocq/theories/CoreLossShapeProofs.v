(** Lemmas about the integrals over the waveform. *)
From Coq Require Import Reals List Lra Lia ZArith String Permutation.
From Verif Require Import Base SizingModel SizingProofs CoreLossModel CoreLossProofs.
Import ListNotations.
Local Open Scope R_scope.
Local Open Scope outcome_scope.

(** Durations and changes (without sign) between consecutive samples. *)
Fixpoint moves (s : list (R * R)) : list (R * R) :=
  match s with
  | a :: ((b :: _) as r) => (fst b - fst a, Rabs (snd b - snd a)) :: moves r
  | _ => []
  end.
Fixpoint steps (s : list (R * R)) : list (R * R) :=
  match s with
  | a :: ((b :: _) as r) => (fst b - fst a, snd b - snd a) :: steps r
  | _ => []
  end.

Lemma moves_steps : forall s, moves s = map (fun i => (fst i, Rabs (snd i))) (steps s).
Proof.
  induction s as [|a [|b s] IH]; try reflexivity.
  change (moves (a :: b :: s)) with ((fst b - fst a, Rabs (snd b - snd a)) :: moves (b :: s)).
  change (steps (a :: b :: s)) with ((fst b - fst a, snd b - snd a) :: steps (b :: s)).
  simpl map. rewrite IH. reflexivity.
Qed.

Lemma intervals_all : forall s, intervals (List.length s) s = steps s.
Proof.
  induction s as [|a [|b s] IH]; try reflexivity.
  cbn [List.length intervals tl] in *.
  rewrite IH. reflexivity.
Qed.

Lemma intervals_map : forall (phi psi : R * R -> R * R) s n,
  (forall a b, (fst (phi b) - fst (phi a), snd (phi b) - snd (phi a)) = psi (fst b - fst a, snd b - snd a)) ->
  intervals n (map phi s) = map psi (intervals n s).
Proof.
  intros phi psi s n H. revert n. induction s as [|a s IH]; intros n; [destruct n; reflexivity|].
  destruct n as [|n]; [reflexivity|]. destruct s as [|b s]; [reflexivity|].
  destruct n as [|n]; [reflexivity|].
  change (intervals (S (S n)) (map phi (a :: b :: s)))
    with ((fst (phi b) - fst (phi a), snd (phi b) - snd (phi a)) :: intervals (S n) (map phi (b :: s))).
  change (intervals (S (S n)) (a :: b :: s))
    with ((fst b - fst a, snd b - snd a) :: intervals (S n) (b :: s)).
  rewrite IH, H. reflexivity.
Qed.

Lemma steps_map : forall (phi psi : R * R -> R * R) s,
  (forall a b, (fst (phi b) - fst (phi a), snd (phi b) - snd (phi a)) = psi (fst b - fst a, snd b - snd a)) ->
  steps (map phi s) = map psi (steps s).
Proof.
  intros phi psi s H. rewrite <- !intervals_all, map_length. apply intervals_map. exact H.
Qed.

Lemma steps_app : forall a p b, steps (a ++ p :: b) = (steps (a ++ [p]) ++ steps (p :: b))%list.
Proof.
  induction a as [|x a IH]; intros p b; [reflexivity|].
  destruct a as [|y a].
  - reflexivity.
  - change (steps ((x :: y :: a) ++ p :: b)) with ((fst y - fst x, snd y - snd x) :: steps ((y :: a) ++ p :: b)).
    change (steps ((x :: y :: a) ++ [p])) with ((fst y - fst x, snd y - snd x) :: steps ((y :: a) ++ [p])).
    rewrite IH. reflexivity.
Qed.

Lemma moves_app : forall a p b, moves (a ++ p :: b) = (moves (a ++ [p]) ++ moves (p :: b))%list.
Proof. intros a p b. rewrite !moves_steps, steps_app, map_app. reflexivity. Qed.

Lemma moves_map : forall (phi : R * R -> R * R) s,
  (forall a b, fst (phi b) - fst (phi a) = fst b - fst a) ->
  (forall a b, Rabs (snd (phi b) - snd (phi a)) = Rabs (snd b - snd a)) ->
  moves (map phi s) = moves s.
Proof.
  intros phi s F G. induction s as [|a [|b s] IH]; try reflexivity.
  change (moves (map phi (a :: b :: s)))
    with ((fst (phi b) - fst (phi a), Rabs (snd (phi b) - snd (phi a))) :: moves (map phi (b :: s))).
  rewrite IH, F, G. reflexivity.
Qed.

(** A waveform played backwards. *)
Lemma moves_rev : forall (c : R) s,
  Permutation (moves (rev (map (fun p => (c - fst p, snd p)) s))) (moves s).
Proof.
  intros c s. induction s as [|a [|b s] IH]; try apply Permutation_refl.
  simpl map. simpl rev. rewrite <- app_assoc. simpl app.
  rewrite moves_app. simpl moves at 2. cbn [fst snd].
  change (moves (a :: b :: s)) with ((fst b - fst a, Rabs (snd b - snd a)) :: moves (b :: s)).
  eapply Permutation_trans; [apply Permutation_app_comm|]. simpl app.
  replace (c - fst a - (c - fst b)) with (fst b - fst a) by ring.
  rewrite (Rabs_minus_sym (snd a)). apply perm_skip. exact IH.
Qed.

(** How long the samples last. *)
Definition span (s : list (R * R)) : R := sumR (map fst (moves s)).

Lemma span_ends : forall s, s <> [] ->
  fst (nth (List.length s - 1) s (0, 0)) - fst (nth 0 s (0, 0)) = span s.
Proof.
  unfold span. induction s as [|a [|b s] IH]; intros N; [contradiction|simpl; ring|].
  change (moves (a :: b :: s)) with ((fst b - fst a, Rabs (snd b - snd a)) :: moves (b :: s)).
  rewrite map_cons. cbn [sumR fst] in *. rewrite <- IH by discriminate.
  replace (List.length (a :: b :: s) - 1)%nat with (S (List.length (b :: s) - 1)) by (simpl; lia).
  cbn [nth]. ring.
Qed.

Lemma one_period_whole : forall s f, span s <= 3 / 2 * (1 / f) ->
  one_period s f (List.length s) = List.length s.
Proof.
  intros s f H. unfold one_period. destruct (Nat.ltb_spec 1 (List.length s)) as [L|L]; [|reflexivity].
  rewrite span_ends by (intros ->; simpl in L; lia).
  destruct (Rlt_dec (3 / 2 * (1 / f)) (span s)); [lra|reflexivity].
Qed.

Lemma integrated_whole : forall s, s <> [] -> integrated s (List.length s) = Ok (steps s).
Proof.
  intros s N. unfold integrated. destruct (List.length s) as [|n] eqn:E.
  - destruct s; [contradiction|discriminate].
  - rewrite Nat.ltb_irrefl. rewrite <- E, intervals_all. reflexivity.
Qed.

Lemma igse_points_whole : forall e f, f <= frequency e -> 0 < frequency e ->
  span (samples e) <= 3 / 2 * (1 / f) -> igse_points e f = List.length (samples e).
Proof.
  intros e f F P H. unfold igse_points.
  destruct (Rlt_dec 1 (f / frequency e)) as [L|_]; [|apply one_period_whole; exact H].
  exfalso. apply (Rmult_lt_compat_r (frequency e)) in L; [|exact P].
  unfold Rdiv in L. rewrite Rmult_assoc, Rinv_l in L by lra. lra.
Qed.

(** The integrals see durations and changes only. *)
Lemma slope_moves : forall alpha s, slope_integral alpha (steps s) = slope_integral alpha (moves s).
Proof.
  intros alpha s. unfold slope_integral. rewrite moves_steps, map_map. apply fsum_ext.
  intros [dt db] _. unfold slope_term. cbn [fst snd].
  destruct (Req_EM_T dt 0) as [_|N]; [reflexivity|]. do 2 f_equal.
  unfold Rdiv. rewrite !Rabs_mult, Rabs_Rabsolu. reflexivity.
Qed.

Lemma square_abs : forall x, Rabs x ^ 2 = x ^ 2.
Proof. intros x. apply pow2_abs. Qed.

Lemma albach_moves : forall swing s, albach_frequency swing (steps s) = albach_frequency swing (moves s).
Proof.
  intros swing s. unfold albach_frequency. f_equal. rewrite moves_steps, map_map. apply fsum_ext.
  intros [dt db] _. unfold albach_term, fdiv. cbn [fst snd].
  destruct (Req_EM_T swing 0) as [_|N]; [reflexivity|].
  destruct (Req_EM_T dt 0) as [_|N']; [reflexivity|]. f_equal.
  assert (E : (Rabs db / swing) ^ 2 = (db / swing) ^ 2).
  { unfold Rdiv. rewrite !Rpow_mult_distr, square_abs. reflexivity. }
  rewrite E. reflexivity.
Qed.

Lemma mse_moves : forall swing s, mse_frequency swing (steps s) = mse_frequency swing (moves s).
Proof.
  intros swing s. unfold mse_frequency. f_equal. rewrite moves_steps, map_map. apply fsum_ext.
  intros [dt db] _. unfold mse_term. cbn [fst snd].
  destruct (Req_EM_T dt 0) as [_|N]; [reflexivity|].
  assert (E : (Rabs db / dt) ^ 2 = (db / dt) ^ 2).
  { unfold Rdiv. rewrite !Rpow_mult_distr, square_abs. reflexivity. }
  rewrite E. reflexivity.
Qed.

Lemma slope_permutation : forall alpha l l', Permutation l l' -> slope_integral alpha l = slope_integral alpha l'.
Proof. intros alpha l l' P. apply fsum_permutation, Permutation_map, P. Qed.
Lemma albach_permutation : forall swing l l', Permutation l l' -> albach_frequency swing l = albach_frequency swing l'.
Proof. intros swing l l' P. unfold albach_frequency. f_equal. apply fsum_permutation, Permutation_map, P. Qed.
Lemma mse_permutation : forall swing l l', Permutation l l' -> mse_frequency swing l = mse_frequency swing l'.
Proof. intros swing l l' P. unfold mse_frequency. f_equal. apply fsum_permutation, Permutation_map, P. Qed.

Lemma span_permutation : forall s s', Permutation (moves s) (moves s') -> span s = span s'.
Proof. intros s s' P. unfold span. apply sumR_permutation, Permutation_map, P. Qed.

(** A segment split on its straight line. *)
Lemma slope_split : forall alpha t1 t2 m, 0 < t1 -> 0 < t2 ->
  slope_term alpha (t1 + t2, m * (t1 + t2)) =
  fadd (slope_term alpha (t1, m * t1)) (slope_term alpha (t2, m * t2)).
Proof.
  intros alpha t1 t2 m H1 H2. unfold slope_term. cbn [fst snd].
  destruct (Req_EM_T (t1 + t2) 0) as [Z|_]; [lra|]. destruct (Req_EM_T t1 0) as [Z|_]; [lra|].
  destruct (Req_EM_T t2 0) as [Z|_]; [lra|].
  replace (m * (t1 + t2) / (t1 + t2)) with m by (field; lra).
  replace (m * t1 / t1) with m by (field; lra). replace (m * t2 / t2) with m by (field; lra).
  destruct (cpow (Rabs m) alpha); simpl; [|reflexivity]. f_equal. ring.
Qed.

Lemma albach_split : forall swing t1 t2 m, 0 < t1 -> 0 < t2 ->
  albach_term swing (t1 + t2, m * (t1 + t2)) =
  fadd (albach_term swing (t1, m * t1)) (albach_term swing (t2, m * t2)).
Proof.
  intros swing t1 t2 m H1 H2. unfold albach_term, fdiv. cbn [fst snd].
  destruct (Req_EM_T swing 0) as [_|N]; [reflexivity|].
  destruct (Req_EM_T (t1 + t2) 0) as [Z|_]; [lra|]. destruct (Req_EM_T t1 0) as [Z|_]; [lra|].
  destruct (Req_EM_T t2 0) as [Z|_]; [lra|]. simpl. f_equal. field. lra.
Qed.

Lemma mse_split : forall t1 t2 m, 0 < t1 -> 0 < t2 ->
  mse_term (t1 + t2, m * (t1 + t2)) = fadd (mse_term (t1, m * t1)) (mse_term (t2, m * t2)).
Proof.
  intros t1 t2 m H1 H2. unfold mse_term. cbn [fst snd].
  destruct (Req_EM_T (t1 + t2) 0) as [Z|_]; [lra|]. destruct (Req_EM_T t1 0) as [Z|_]; [lra|].
  destruct (Req_EM_T t2 0) as [Z|_]; [lra|]. simpl. f_equal. field. lra.
Qed.

(** ** Convexity of the power *)

Lemma exp_tangent : forall x m, exp m * (1 + (x - m)) <= exp x.
Proof.
  intros x m. pose proof (exp_ineq1_le (x - m)) as H.
  apply (Rmult_le_compat_l (exp m)) in H; [|left; apply exp_pos].
  rewrite <- exp_plus in H. replace (m + (x - m)) with x in H by ring. exact H.
Qed.

(** The tangent of the power: Bernoulli's inequality. *)
Lemma bernoulli : forall u a, 0 < u -> 1 <= a -> 1 + a * (u - 1) <= Rpower u a.
Proof.
  intros u a U A. unfold Rpower. set (x := a * ln u).
  (* exp (x/a) <= (1/a) exp x + (1 - 1/a) *)
  assert (H : u <= / a * exp x + (1 - / a)).
  { pose proof (exp_tangent x (ln u)) as H1. pose proof (exp_tangent 0 (ln u)) as H2.
    rewrite exp_ln in H1, H2 by assumption. rewrite exp_0 in H2.
    assert (IA : 0 < / a) by (apply Rinv_0_lt_compat; lra).
    assert (IA1 : / a <= 1) by (rewrite <- Rinv_1; apply Rinv_le_contravar; lra).
    apply (Rmult_le_compat_l (/ a)) in H1; [|lra]. apply (Rmult_le_compat_l (1 - / a)) in H2; [|lra].
    assert (E : / a * (u * (1 + (x - ln u))) + (1 - / a) * (u * (1 + (0 - ln u))) = u).
    { unfold x. field. lra. }
    lra. }
  apply (Rmult_le_compat_l a) in H; [|lra].
  replace (a * (/ a * exp x + (1 - / a))) with (exp x + a - 1) in H by (field; lra). lra.
Qed.

(** The tangent of the power at a positive point. *)
Lemma pw_tangent : forall x y a, 0 <= x -> 0 < y -> 1 <= a ->
  pw y a + a * pw y a / y * (x - y) <= pw x a.
Proof.
  intros x y a [X| <-] Y A.
  - rewrite !pw_pos_eq by assumption.
    assert (U : 0 < x / y) by (apply Rmult_lt_0_compat; [|apply Rinv_0_lt_compat]; assumption).
    pose proof (bernoulli (x / y) a U A) as H.
    apply (Rmult_le_compat_l (Rpower y a)) in H; [|left; apply Rpower_pos].
    rewrite Rpower_mult_distr in H by assumption. replace (y * (x / y)) with x in H by (field; lra).
    replace (Rpower y a * (1 + a * (x / y - 1))) with (Rpower y a + a * Rpower y a / y * (x - y)) in H
      by (field; lra). exact H.
  - rewrite pw_0. replace (pw y a + a * pw y a / y * (0 - y)) with (- (a - 1) * pw y a) by (field; lra).
    pose proof (pw_nonneg y a). assert (0 <= (a - 1) * pw y a) by (apply Rmult_le_pos; lra). lra.
Qed.

(** The mean of powers is not below the power of the mean. *)
Lemma power_mean : forall (l : list (R * R)) a T V, 1 <= a ->
  (forall i, In i l -> 0 < fst i /\ 0 <= snd i) ->
  sumR (map fst l) = T -> sumR (map snd l) = V -> 0 < T ->
  T * pw (V / T) a <= sumR (map (fun i => pw (snd i / fst i) a * fst i) l).
Proof.
  intros l a T V A P ET EV HT.
  assert (V0 : 0 <= V).
  { rewrite <- EV. apply sumR_nonneg. intros x X. apply in_map_iff in X as (i & <- & I). apply P, I. }
  destruct V0 as [V0|V0].
  - assert (Y : 0 < V / T) by (apply Rmult_lt_0_compat; [|apply Rinv_0_lt_compat]; assumption).
    set (y := V / T) in *.
    assert (S : sumR (map (fun i => (pw y a + a * pw y a / y * (snd i / fst i - y)) * fst i) l)
                <= sumR (map (fun i => pw (snd i / fst i) a * fst i) l)).
    { apply sumR_le. intros i I. destruct (P i I) as [F S].
      apply Rmult_le_compat_r; [lra|]. apply pw_tangent; [|assumption|assumption].
      apply Rmult_le_pos; [assumption|]. left. apply Rinv_0_lt_compat. assumption. }
    eapply Rle_trans; [|exact S]. clear S. right.
    assert (E : forall l', (forall i, In i l' -> 0 < fst i) ->
              sumR (map (fun i => (pw y a + a * pw y a / y * (snd i / fst i - y)) * fst i) l') =
              pw y a * sumR (map fst l') + a * pw y a / y * (sumR (map snd l') - y * sumR (map fst l'))).
    { induction l' as [|i l' IH]; intros Q; cbn [map sumR]; [ring|].
      rewrite IH by (intros j J; apply Q; right; exact J).
      pose proof (Q i (or_introl eq_refl)). field. split; lra. }
    rewrite E by (intros i I; apply P, I). rewrite ET, EV. unfold y. field. lra.
  - subst V. rewrite <- V0. unfold Rdiv. rewrite Rmult_0_l, pw_0, Rmult_0_r. apply sumR_nonneg.
    intros x X. apply in_map_iff in X as (i & <- & I). apply Rmult_le_pos; [apply pw_nonneg|].
    left. apply P, I.
Qed.

(** What a closed waveform goes up and down. *)
Lemma rise : forall s p q, In p s -> In q s -> Rabs (snd q - snd p) <= sumR (map snd (moves s)).
Proof.
  assert (NN : forall s, 0 <= sumR (map snd (moves s))).
  { intros s. apply sumR_nonneg. intros x X. apply in_map_iff in X as (i & <- & I).
    rewrite moves_steps in I. apply in_map_iff in I as (j & <- & _). apply Rabs_pos. }
  assert (H0 : forall s a q, In q (a :: s) -> Rabs (snd q - snd a) <= sumR (map snd (moves (a :: s)))).
  { induction s as [|b s IH]; intros a q Q.
    - destruct Q as [<-|[]]. rewrite Rminus_eq_0, Rabs_R0. simpl. lra.
    - change (moves (a :: b :: s)) with ((fst b - fst a, Rabs (snd b - snd a)) :: moves (b :: s)).
      cbn [map sumR snd]. destruct Q as [<-|Q].
      + rewrite Rminus_eq_0, Rabs_R0. pose proof (Rabs_pos (snd b - snd a)). pose proof (NN (b :: s)). lra.
      + pose proof (IH b q Q) as H. replace (snd q - snd a) with ((snd b - snd a) + (snd q - snd b)) by ring.
        eapply Rle_trans; [apply Rabs_triang|]. lra. }
  intros s p q. induction s as [|a s IH]; intros P Q; [contradiction|].
  destruct P as [<-|P]; [apply H0; exact Q|].
  destruct Q as [<-|Q]; [rewrite Rabs_minus_sym; apply H0; right; exact P|].
  pose proof (IH P Q) as H. destruct s as [|b s]; [contradiction|].
  change (moves (a :: b :: s)) with ((fst b - fst a, Rabs (snd b - snd a)) :: moves (b :: s)).
  cbn [map sumR snd]. pose proof (Rabs_pos (snd b - snd a)). lra.
Qed.

Lemma moves_changes : forall s, sumR (map snd (moves s)) = sumR (map (fun i => Rabs (snd i)) (steps s)).
Proof. intros s. rewrite moves_steps, map_map. reflexivity. Qed.

Lemma closed_swing : forall a p b q c,
  (* a .. p .. q .. c, closed *)
  forall first, hd_error (a ++ p :: b ++ q :: c) = Some first ->
  snd (last (q :: c) q) = snd first ->
  2 * Rabs (snd q - snd p) <= sumR (map snd (moves (a ++ p :: b ++ q :: c))).
Proof.
  intros a p b q c first HF HL.
  rewrite moves_app. change (p :: b ++ q :: c) with ((p :: b) ++ q :: c). rewrite (moves_app (p :: b)).
  rewrite !map_app, !sumR_app.
  assert (A : Rabs (snd p - snd first) <= sumR (map snd (moves (a ++ [p])))).
  { apply rise.
    - destruct a as [|x a]; simpl in HF; injection HF as ->; left; reflexivity.
    - apply in_or_app. right. left. reflexivity. }
  assert (B : Rabs (snd q - snd p) <= sumR (map snd (moves ((p :: b) ++ [q])))).
  { apply rise; [left; reflexivity|]. apply in_or_app. right. left. reflexivity. }
  assert (C : Rabs (snd (last (q :: c) q) - snd q) <= sumR (map snd (moves (q :: c)))).
  { apply rise; [left; reflexivity|]. clear. generalize q at 1 3. intros x.
    revert x. generalize q. induction c as [|y c IH]; intros z x; [left; reflexivity|].
    right. change (last (x :: y :: c) z) with (last (y :: c) z). apply (IH z y). }
  rewrite HL in C.
  pose proof (Rabs_triang (snd q - snd first) (snd first - snd p)) as T.
  replace (snd q - snd first + (snd first - snd p)) with (snd q - snd p) in T by ring.
  rewrite (Rabs_minus_sym (snd q) (snd first)), (Rabs_minus_sym (snd first) (snd p)) in T.
  lra.
Qed.
