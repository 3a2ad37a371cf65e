(** * Core losses: scaling laws (C127) *)
From Coq Require Import Reals List Lra Lia ZArith String Permutation.
From Verif Require Import Base SizingModel SizingProofs CoreLossModel CoreLossProofs CoreLossShapeProofs.
Import ListNotations.
Local Open Scope R_scope.

(** ** C127 *)

(** The same excitation with the flux density [c] times as large. *)
Definition stronger (c : R) (e : excitation) : excitation :=
  {| frequency := frequency e; current_points := current_points e; current_harmonics := current_harmonics e;
     peak := c * peak e; offset := c * offset e; peak_to_peak := c * peak_to_peak e;
     harmonics := option_map (map (fun h => (fst h, c * snd h))) (harmonics e);
     samples := map (fun p => (fst p, c * snd p)) (samples e) |}.

(** The same excitation [c] times as fast. *)
Definition faster (c : R) (e : excitation) : excitation :=
  {| frequency := c * frequency e; current_points := current_points e; current_harmonics := current_harmonics e;
     peak := peak e; offset := offset e; peak_to_peak := peak_to_peak e;
     harmonics := option_map (map (fun h => (c * fst h, snd h))) (harmonics e);
     samples := map (fun p => (fst p / c, snd p)) (samples e) |}.

(** The models: the function that gives the losses at a temperature. *)
Inductive loss_model : (option steinmetz -> list steinmetz -> excitation -> R -> outcome figure) -> Prop :=
| ByLaw : loss_model steinmetz_losses
| ByIgse : forall n, loss_model (igse_losses n)
| ByAlbach : loss_model albach_losses
| ByMse : loss_model mse_losses
| ByNse : forall n, loss_model (nse_losses n)
| ByBarg : forall spline, loss_model (barg_losses spline).

Lemma stronger_switching : forall c e, switching_frequency (stronger c e) = switching_frequency e.
Proof. reflexivity. Qed.

Lemma amplitude_stronger : forall c l f,
  amplitude_at (map (fun h => (fst h, c * snd h)) l) f = option_map (Rmult c) (amplitude_at l f).
Proof.
  intros c l f. induction l as [|[g a] l IH]; simpl; [reflexivity|].
  destruct (Req_EM_T g f); [reflexivity|exact IH].
Qed.

Lemma harmonic_stronger : forall c e f, harmonic_at (stronger c e) f = option_map (Rmult c) (harmonic_at e f).
Proof.
  intros c e f. unfold harmonic_at, stronger. cbn [harmonics].
  destruct (harmonics e) as [[|x [|[f1 a1] r]]|]; simpl; try reflexivity.
  destruct (Req_EM_T f1 f); [reflexivity|]. apply amplitude_stronger.
Qed.

Lemma peak_stronger : forall c e f, peak_at (stronger c e) f = c * peak_at e f.
Proof. intros c e f. unfold peak_at. rewrite harmonic_stronger. destruct (harmonic_at e f); reflexivity. Qed.
Lemma swing_stronger : forall c e f, peak_to_peak_at (stronger c e) f = c * peak_to_peak_at e f.
Proof.
  intros c e f. unfold peak_to_peak_at. rewrite harmonic_stronger.
  destruct (harmonic_at e f); simpl; [ring|reflexivity].
Qed.

Lemma law_scale : forall c beta main ac, 0 < c ->
  amplitude_law beta (c * main) (c * ac) = fmul (Some (Rpower c beta)) (amplitude_law beta main ac).
Proof.
  intros c beta main ac C. unfold amplitude_law. destruct (Rlt_dec 2 beta).
  - rewrite !cpow_scale by assumption.
    destruct (cpow main (beta - 2)), (cpow ac 2); simpl; try reflexivity. f_equal.
    replace beta with ((beta - 2) + 2) at 2 by ring. rewrite Rpower_plus. ring.
  - apply cpow_scale. assumption.
Qed.

Lemma abs_scale : forall c x y, 0 < c -> Rabs (c * x - c * y) = c * Rabs (x - y).
Proof.
  intros c x y C. replace (c * x - c * y) with (c * (x - y)) by ring. rewrite Rabs_mult, (Rabs_pos_eq c); lra.
Qed.

Lemma temperature_scale : forall c v d t, with_temperature (fmul c v) d t = fmul c (with_temperature v d t).
Proof. intros c v d t. unfold with_temperature. destruct c, v; simpl; try reflexivity. f_equal. ring. Qed.

Lemma samples_nth : forall (g : R -> R) (h : R -> R) s i, (i < List.length s)%nat ->
  nth i (map (fun p => (g (fst p), h (snd p))) s) (0, 0) = (g (fst (nth i s (0, 0))), h (snd (nth i s (0, 0)))).
Proof.
  intros g h s. induction s as [|a s IH]; intros i L; [simpl in L; lia|].
  destruct i as [|i]; [reflexivity|]. simpl. apply IH. simpl in L. lia.
Qed.

Lemma nth_out : forall (s : list (R * R)) i, (List.length s <= i)%nat -> nth i s (0, 0) = (0, 0).
Proof. intros s i L. apply nth_overflow. exact L. Qed.

(** The times of the samples rule the number of points kept. *)
Lemma one_period_stronger : forall c s f n,
  one_period (map (fun p => (fst p, c * snd p)) s) f n = one_period s f n.
Proof.
  intros c s f n. unfold one_period. destruct (Nat.ltb 1 n); [|reflexivity].
  assert (E : forall i, fst (nth i (map (fun p => (fst p, c * snd p)) s) (0, 0)) = fst (nth i s (0, 0))).
  { intros i. destruct (Nat.lt_ge_cases i (List.length s)) as [L|L].
    - rewrite (samples_nth (fun x => x) (Rmult c)) by exact L. reflexivity.
    - rewrite !nth_out by (try rewrite map_length; exact L). reflexivity. }
  rewrite !E. reflexivity.
Qed.

Lemma integrated_map : forall (phi psi : R * R -> R * R) s n,
  (forall a b, (fst (phi b) - fst (phi a), snd (phi b) - snd (phi a)) = psi (fst b - fst a, snd b - snd a)) ->
  integrated (map phi s) n = bind (integrated s n) (fun l => Ok (map psi l)).
Proof.
  intros phi psi s n H. unfold integrated. destruct n; [reflexivity|]. rewrite map_length.
  destruct (Nat.ltb _ _); [reflexivity|]. simpl bind. f_equal. apply intervals_map. exact H.
Qed.

Definition higher (c : R) (i : R * R) : R * R := (fst i, c * snd i).
Lemma integrated_stronger : forall c s n,
  integrated (map (fun p => (fst p, c * snd p)) s) n = bind (integrated s n) (fun l => Ok (map (higher c) l)).
Proof.
  intros c s n. apply integrated_map. intros a b. unfold higher. cbn [fst snd]. f_equal. ring.
Qed.

Lemma slope_higher : forall c alpha l, 0 < c ->
  slope_integral alpha (map (higher c) l) = fmul (Some (Rpower c alpha)) (slope_integral alpha l).
Proof.
  intros c alpha l C. unfold slope_integral. rewrite map_map.
  apply (fsum_scale _ (Rpower c alpha)). intros [dt db] _. unfold slope_term, higher. cbn [fst snd].
  destruct (Req_EM_T dt 0); [reflexivity|].
  assert (E : Rabs (c * db / dt) = c * Rabs (db / dt)).
  { replace (c * db / dt) with (c * (db / dt)) by (field; assumption).
    rewrite Rabs_mult, (Rabs_pos_eq c); lra. }
  rewrite E, cpow_scale by assumption. rewrite fmul_assoc. reflexivity.
Qed.

Lemma albach_higher : forall c swing l, 0 < c ->
  albach_frequency (c * swing) (map (higher c) l) = albach_frequency swing l.
Proof.
  intros c swing l C. unfold albach_frequency. f_equal. rewrite map_map. apply fsum_ext.
  intros [dt db] _. unfold albach_term, higher, fdiv. cbn [fst snd].
  destruct (Req_EM_T (c * swing) 0) as [Z|Z], (Req_EM_T swing 0) as [Z'|Z']; try reflexivity.
  - exfalso. apply Rmult_integral in Z. lra.
  - exfalso. apply Z. rewrite Z'. ring.
  - destruct (Req_EM_T dt 0); [reflexivity|]. do 2 f_equal. f_equal. field. split; lra.
Qed.

Lemma mse_higher : forall c swing l, 0 < c ->
  mse_frequency (c * swing) (map (higher c) l) = mse_frequency swing l.
Proof.
  intros c swing l C. unfold mse_frequency. rewrite map_map.
  rewrite (fsum_scale _ (c ^ 2) mse_term (fun i => mse_term (higher c i))).
  - destruct (Req_EM_T swing 0) as [Z|Z].
    + subst swing. rewrite Rmult_0_r. unfold fdiv. destruct (Req_EM_T (0 ^ 2) 0) as [_|N]; [reflexivity|].
      exfalso. apply N. simpl. ring.
    + unfold fdiv. destruct (Req_EM_T ((c * swing) ^ 2) 0) as [W|_].
      { exfalso. revert W. apply pow_nonzero. intros W. apply Rmult_integral in W. lra. }
      destruct (Req_EM_T (swing ^ 2) 0) as [W|_]; [exfalso; revert W; apply pow_nonzero; exact Z|].
      destruct (fsum (map mse_term l)) as [x|]; [|reflexivity]. unfold fmul, fmap2. f_equal.
      pose proof PI_RGT_0. field. repeat split; lra.
  - intros [dt db] _. unfold mse_term, higher. cbn [fst snd].
    destruct (Req_EM_T dt 0); [reflexivity|]. unfold fmul, fmap2. f_equal. field. assumption.
Qed.

Lemma highest_stronger : forall c l x, 0 < c ->
  highest_value (c * x) (map (Rmult c) l) = c * highest_value x l.
Proof.
  intros c l. induction l as [|y l IH]; intros x C; simpl; [reflexivity|].
  destruct (Rlt_dec x y) as [L|L], (Rlt_dec (c * x) (c * y)) as [L'|L']; try (apply IH; assumption); exfalso.
  - apply L'. apply Rmult_lt_compat_l; assumption.
  - apply L. apply (Rmult_lt_reg_l c); assumption.
Qed.

Lemma plateau_stronger : forall c l, 0 < c -> plateau_duty (map (Rmult c) l) = plateau_duty l.
Proof.
  intros c [|x l] C; [reflexivity|]. unfold plateau_duty.
  change (map (Rmult c) (x :: l)) with (c * x :: map (Rmult c) l). cbv iota beta zeta.
  rewrite highest_stronger by assumption. set (m := highest_value x l).
  assert (E : forall y, on_plateau (c * m) (c * y) = on_plateau m y).
  { intros y. unfold on_plateau.
    destruct (Req_EM_T (c * m) 0) as [Z|Z], (Req_EM_T m 0) as [Z'|Z']; try reflexivity.
    - exfalso. apply Rmult_integral in Z. lra.
    - exfalso. apply Z. rewrite Z'. ring.
    - rewrite abs_scale by assumption.
      replace (c * Rabs (m - y) / (c * m)) with (Rabs (m - y) / m) by (field; lra). reflexivity. }
  assert (F : forall k, List.length (filter (on_plateau (c * m)) (map (Rmult c) k)) = List.length (filter (on_plateau m) k)).
  { induction k as [|y k IH]; [reflexivity|]. simpl. rewrite E. destruct (on_plateau m y); simpl; rewrite IH; reflexivity. }
  change (c * x :: map (Rmult c) l) with (map (Rmult c) (x :: l)). rewrite F, map_length. reflexivity.
Qed.

Lemma bind_datum : forall (A B : Type) (m : outcome A) (f : A -> outcome B) v,
  bind m f = Ok v -> exists x, m = Ok x /\ f x = Ok v.
Proof. intros A B [x| | |] f v H; simpl in H; try discriminate. exists x. auto. Qed.

Ltac took H f Ef := apply bind_datum in H as (f & Ef & H).

(** A flux density [c] times as large loses [c] to the [beta] times as much, at
    every temperature and in every model: with the coefficients [d] used at the
    frequency [f] of the excitation. *)
Theorem C127_flux_density : forall model loaded ranges e t c f d v,
  loss_model model -> 0 < c ->
  switching_frequency e = Ok f -> datum loaded ranges f = Ok d ->
  model loaded ranges e t = Ok v ->
  model loaded ranges (stronger c e) t = Ok (fmul (Some (Rpower c (beta_ d))) v).
Proof.
  intros model loaded ranges e t c f d v M C EF ED EV.
  assert (PB : Rpower c (beta_ d) = Rpower c (beta_ d - alpha_ d) * Rpower c (alpha_ d)).
  { rewrite <- Rpower_plus. f_equal. ring. }
  destruct M.
  - unfold steinmetz_losses in *. rewrite stronger_switching, EF in *. simpl bind in *.
    rewrite ED in *. simpl bind in *. injection EV as <-. f_equal.
    rewrite peak_stronger. cbn [peak offset stronger]. rewrite !abs_scale, law_scale by assumption.
    rewrite <- temperature_scale. f_equal.
    rewrite fmul_assoc, (fmul_comm _ (Some (Rpower c _))), <- fmul_assoc. reflexivity.
  - unfold igse_losses in *. rewrite stronger_switching, EF in *. simpl bind in *.
    rewrite ED in *. simpl bind in *. took EV l El. injection EV as <-.
    assert (P : igse_points (stronger c e) f = igse_points e f).
    { unfold igse_points. cbn [samples frequency stronger]. rewrite map_length. apply one_period_stronger. }
    rewrite P. cbn [samples stronger]. rewrite integrated_stronger, El. simpl bind. f_equal.
    rewrite swing_stronger, cpow_scale, slope_higher by assumption. rewrite PB, <- temperature_scale. f_equal.
    destruct (ki n d), (cpow (peak_to_peak_at e f) (beta_ d - alpha_ d)), (slope_integral (alpha_ d) l);
      simpl; try reflexivity. f_equal. ring.
  - unfold albach_losses, equivalent_losses in *. rewrite stronger_switching, EF in *. simpl bind in *.
    rewrite ED in *. simpl bind in *. took EV l El. injection EV as <-.
    cbn [samples stronger]. rewrite map_length, one_period_stronger, integrated_stronger, El. simpl bind. f_equal.
    rewrite swing_stronger, albach_higher by assumption. rewrite peak_stronger. cbn [peak offset stronger].
    rewrite abs_scale by assumption. replace (c * peak e - c * offset e) with (c * (peak e - offset e)) by ring.
    rewrite law_scale by assumption. rewrite <- temperature_scale. f_equal.
    rewrite fmul_assoc, (fmul_comm _ (Some (Rpower c _))), <- fmul_assoc. reflexivity.
  - unfold mse_losses, equivalent_losses in *. rewrite stronger_switching, EF in *. simpl bind in *.
    rewrite ED in *. simpl bind in *. took EV l El. injection EV as <-.
    cbn [samples stronger]. rewrite map_length, one_period_stronger, integrated_stronger, El. simpl bind. f_equal.
    rewrite swing_stronger, mse_higher by assumption. rewrite peak_stronger. cbn [peak offset stronger].
    rewrite abs_scale by assumption. replace (c * peak e - c * offset e) with (c * (peak e - offset e)) by ring.
    rewrite law_scale by assumption. rewrite <- temperature_scale. f_equal.
    rewrite fmul_assoc, (fmul_comm _ (Some (Rpower c _))), <- fmul_assoc. reflexivity.
  - unfold nse_losses in *. rewrite stronger_switching, EF in *. simpl bind in *.
    rewrite ED in *. simpl bind in *. took EV l El. injection EV as <-.
    cbn [samples stronger peak offset]. rewrite map_length, integrated_stronger, El. simpl bind. f_equal.
    replace (c * peak e - c * offset e) with (c * (peak e - offset e)) by ring.
    rewrite cpow_scale, slope_higher by assumption. rewrite PB, <- temperature_scale. f_equal.
    destruct (kn n d), (cpow (peak e - offset e) (beta_ d - alpha_ d)), (slope_integral (alpha_ d) l);
      simpl; try reflexivity. f_equal. ring.
  - unfold barg_losses in *. rewrite stronger_switching, EF in *. simpl bind in *.
    rewrite ED in *. simpl bind in *. took EV duty Eduty. injection EV as <-.
    assert (S : map snd (samples (stronger c e)) = map (Rmult c) (map snd (samples e))).
    { cbn [samples stronger]. rewrite !map_map. reflexivity. }
    cbn [samples stronger] in *. rewrite S, plateau_stronger, Eduty by assumption. simpl bind. f_equal.
    rewrite peak_stronger. cbn [peak offset stronger].
    rewrite abs_scale by assumption. replace (c * peak e - c * offset e) with (c * (peak e - offset e)) by ring.
    rewrite law_scale by assumption.
    unfold with_temperature.
    destruct (cpow f (alpha_ d)), (amplitude_law (beta_ d) (peak e - offset e) (Rabs (peak_at e f - offset e)));
      simpl; try reflexivity. f_equal. ring.
Qed.

(** ** Faster *)

Lemma amplitude_faster : forall c l f, 0 < c ->
  amplitude_at (map (fun h => (c * fst h, snd h)) l) (c * f) = amplitude_at l f.
Proof.
  intros c l f C. induction l as [|[g a] l IH]; simpl; [reflexivity|].
  destruct (Req_EM_T (c * g) (c * f)) as [E|E], (Req_EM_T g f) as [E'|E']; try reflexivity; try exact IH.
  - exfalso. apply E'. apply (Rmult_eq_reg_l c); [exact E|lra].
  - exfalso. apply E. rewrite E'. reflexivity.
Qed.

Lemma harmonic_faster : forall c e f, 0 < c -> harmonic_at (faster c e) (c * f) = harmonic_at e f.
Proof.
  intros c e f C. unfold harmonic_at, faster. cbn [harmonics].
  destruct (harmonics e) as [[|x [|[f1 a1] r]]|]; simpl; try reflexivity.
  destruct (Req_EM_T (c * f1) (c * f)) as [E|E], (Req_EM_T f1 f) as [E'|E']; try reflexivity.
  - exfalso. apply E'. apply (Rmult_eq_reg_l c); [exact E|lra].
  - exfalso. apply E. rewrite E'. reflexivity.
  - apply amplitude_faster. exact C.
Qed.

Lemma peak_faster : forall c e f, 0 < c -> peak_at (faster c e) (c * f) = peak_at e f.
Proof. intros c e f C. unfold peak_at. rewrite harmonic_faster by exact C. reflexivity. Qed.
Lemma swing_faster : forall c e f, 0 < c -> peak_to_peak_at (faster c e) (c * f) = peak_to_peak_at e f.
Proof. intros c e f C. unfold peak_to_peak_at. rewrite harmonic_faster by exact C. reflexivity. Qed.

Lemma one_period_faster : forall c s f n, 0 < c -> 0 < f ->
  one_period (map (fun p => (fst p / c, snd p)) s) (c * f) n = one_period s f n.
Proof.
  intros c s f n C F. unfold one_period. destruct (Nat.ltb 1 n); [|reflexivity].
  assert (E : forall i, fst (nth i (map (fun p => (fst p / c, snd p)) s) (0, 0)) = fst (nth i s (0, 0)) / c).
  { intros i. destruct (Nat.lt_ge_cases i (List.length s)) as [L|L].
    - rewrite (samples_nth (fun x => x / c) (fun x => x)) by exact L. reflexivity.
    - rewrite !nth_out by (try rewrite map_length; exact L). simpl. unfold Rdiv. ring. }
  rewrite !E. set (a := fst (nth (n - 1) s (0, 0))). set (b := fst (nth 0 s (0, 0))).
  replace (a / c - b / c) with ((a - b) / c) by (field; lra).
  replace ((a - b) / c * (c * f)) with ((a - b) * f) by (field; lra).
  replace (3 / 2 * (1 / (c * f))) with (3 / 2 * (1 / f) / c) by (field; lra).
  destruct (Rlt_dec (3 / 2 * (1 / f) / c) ((a - b) / c)) as [L|L], (Rlt_dec (3 / 2 * (1 / f)) (a - b)) as [L'|L'];
    try reflexivity; exfalso.
  - apply L'. apply (Rmult_lt_reg_r (/ c)); [apply Rinv_0_lt_compat; exact C|exact L].
  - apply L. apply Rmult_lt_compat_r; [apply Rinv_0_lt_compat; exact C|exact L'].
Qed.

Definition quicker (c : R) (i : R * R) : R * R := (fst i / c, snd i).
Lemma integrated_faster : forall c s n, 0 < c ->
  integrated (map (fun p => (fst p / c, snd p)) s) n = bind (integrated s n) (fun l => Ok (map (quicker c) l)).
Proof.
  intros c s n C. apply integrated_map. intros a b. unfold quicker. cbn [fst snd]. f_equal. field. lra.
Qed.

Lemma div_zero : forall c x, 0 < c -> (x / c = 0 <-> x = 0).
Proof.
  intros c x C. split; [|intros ->; unfold Rdiv; ring].
  intros H. replace x with (x / c * c) by (field; lra). rewrite H. ring.
Qed.

Lemma slope_quicker : forall c alpha l, 0 < c ->
  slope_integral alpha (map (quicker c) l) = fmul (Some (Rpower c alpha / c)) (slope_integral alpha l).
Proof.
  intros c alpha l C. unfold slope_integral. rewrite map_map.
  apply (fsum_scale _ (Rpower c alpha / c)). intros [dt db] _. unfold slope_term, quicker. cbn [fst snd].
  destruct (Req_EM_T (dt / c) 0) as [Z|Z], (Req_EM_T dt 0) as [Z'|Z']; try reflexivity.
  - exfalso. apply Z'. apply (div_zero c); assumption.
  - exfalso. apply Z. apply (div_zero c); assumption.
  - assert (E : Rabs (db / (dt / c)) = c * Rabs (db / dt)).
    { replace (db / (dt / c)) with (c * (db / dt)) by (field; split; lra).
      rewrite Rabs_mult, (Rabs_pos_eq c); lra. }
    rewrite E, cpow_scale by assumption. destruct (cpow (Rabs (db / dt)) alpha); simpl; [|reflexivity].
    f_equal. field. lra.
Qed.

Lemma albach_quicker : forall c swing l, 0 < c ->
  albach_frequency swing (map (quicker c) l) = fmul (Some c) (albach_frequency swing l).
Proof.
  intros c swing l C. unfold albach_frequency. rewrite map_map.
  rewrite (fsum_scale _ c (albach_term swing) (fun i => albach_term swing (quicker c i))).
  - rewrite !fmul_assoc, (fmul_comm (Some c)). reflexivity.
  - intros [dt db] _. unfold albach_term, quicker, fdiv. cbn [fst snd].
    destruct (Req_EM_T swing 0); [reflexivity|].
    destruct (Req_EM_T (dt / c) 0) as [Z|Z], (Req_EM_T dt 0) as [Z'|Z']; try reflexivity.
    + exfalso. apply Z'. apply (div_zero c); assumption.
    + exfalso. apply Z. apply (div_zero c); assumption.
    + unfold fmul, fmap2. f_equal. field. repeat split; lra.
Qed.

Lemma mse_quicker : forall c swing l, 0 < c ->
  mse_frequency swing (map (quicker c) l) = fmul (Some c) (mse_frequency swing l).
Proof.
  intros c swing l C. unfold mse_frequency. rewrite map_map.
  rewrite (fsum_scale _ c mse_term (fun i => mse_term (quicker c i))).
  - rewrite !fmul_assoc, (fmul_comm (Some c)). reflexivity.
  - intros [dt db] _. unfold mse_term, quicker. cbn [fst snd].
    destruct (Req_EM_T (dt / c) 0) as [Z|Z], (Req_EM_T dt 0) as [Z'|Z']; try reflexivity.
    + exfalso. apply Z'. apply (div_zero c); assumption.
    + exfalso. apply Z. apply (div_zero c); assumption.
    + unfold fmul, fmap2. f_equal. field. split; lra.
Qed.

(** An excitation [c] times as fast loses [c] to the [alpha] times as much in
    every model, as long as the coefficients are the same at both frequencies
    (and the current says nothing of a switching frequency of its own). *)
Theorem C127_frequency : forall model loaded ranges e t c d v,
  loss_model model -> 0 < c -> 0 < frequency e -> current_harmonics e = None ->
  datum loaded ranges (frequency e) = Ok d -> datum loaded ranges (c * frequency e) = Ok d ->
  model loaded ranges e t = Ok v ->
  model loaded ranges (faster c e) t = Ok (fmul (Some (Rpower c (alpha_ d))) v).
Proof.
  intros model loaded ranges e t c d v M C F H ED ED' EV.
  assert (S : switching_frequency e = Ok (frequency e)).
  { unfold switching_frequency. rewrite H. destruct (Rlt_dec _ _); reflexivity. }
  assert (S' : switching_frequency (faster c e) = Ok (c * frequency e)).
  { unfold switching_frequency. cbn [frequency current_harmonics faster]. rewrite H.
    destruct (Rlt_dec _ _); reflexivity. }
  set (f := frequency e) in *.
  assert (PA : Rpower c (alpha_ d) = Rpower c (alpha_ d - 1) * c).
  { rewrite <- (Rpower_1 c) at 3 by exact C. rewrite <- Rpower_plus. f_equal. ring. }
  destruct M.
  - unfold steinmetz_losses in *. rewrite S in EV. rewrite S'. simpl bind in *.
    rewrite ED in EV. rewrite ED'. simpl bind in *. injection EV as <-. f_equal.
    rewrite peak_faster by exact C. cbn [peak offset faster].
    rewrite cpow_scale, <- temperature_scale by exact C. f_equal.
    destruct (cpow f (alpha_ d)), (amplitude_law (beta_ d) (Rabs (peak e - offset e)) (Rabs (peak_at e f - offset e)));
      simpl; try reflexivity. f_equal. ring.
  - unfold igse_losses in *. rewrite S in EV. rewrite S'. simpl bind in *.
    rewrite ED in EV. rewrite ED'. simpl bind in *. took EV l El. injection EV as <-.
    assert (P : igse_points (faster c e) (c * f) = igse_points e f).
    { unfold igse_points. cbn [samples frequency faster]. rewrite map_length. fold f.
      replace (c * f / (c * f)) with (f / f) by (field; lra). apply one_period_faster; assumption. }
    rewrite P. cbn [samples faster]. rewrite integrated_faster, El by exact C. simpl bind. f_equal.
    rewrite swing_faster, slope_quicker, <- temperature_scale by exact C. f_equal.
    destruct (ki n d), (cpow (peak_to_peak_at e f) (beta_ d - alpha_ d)), (slope_integral (alpha_ d) l);
      simpl; try reflexivity. f_equal. field. lra.
  - unfold albach_losses, equivalent_losses in *. rewrite S in EV. rewrite S'. simpl bind in *.
    rewrite ED in EV. rewrite ED'. simpl bind in *. took EV l El. injection EV as <-.
    cbn [samples faster]. rewrite map_length, one_period_faster, integrated_faster, El by assumption.
    simpl bind. f_equal. rewrite swing_faster, albach_quicker, peak_faster by exact C. cbn [peak offset faster].
    rewrite <- temperature_scale. f_equal.
    destruct (albach_frequency (peak_to_peak_at e f) l)
      as [x|]; [|destruct (amplitude_law _ _ _); reflexivity].
    change (fmul (Some c) (Some x)) with (Some (c * x)). cbv iota beta.
    rewrite cpow_scale, PA by exact C.
    destruct (cpow x (alpha_ d - 1)), (amplitude_law (beta_ d) (peak e - offset e) (Rabs (peak_at e f - offset e)));
      simpl; try reflexivity. f_equal. ring.
  - unfold mse_losses, equivalent_losses in *. rewrite S in EV. rewrite S'. simpl bind in *.
    rewrite ED in EV. rewrite ED'. simpl bind in *. took EV l El. injection EV as <-.
    cbn [samples faster]. rewrite map_length, one_period_faster, integrated_faster, El by assumption.
    simpl bind. f_equal. rewrite swing_faster, mse_quicker, peak_faster by exact C. cbn [peak offset faster].
    rewrite <- temperature_scale. f_equal.
    destruct (mse_frequency (peak_to_peak_at e f) l)
      as [x|]; [|destruct (amplitude_law _ _ _); reflexivity].
    change (fmul (Some c) (Some x)) with (Some (c * x)). cbv iota beta.
    rewrite cpow_scale, PA by exact C.
    destruct (cpow x (alpha_ d - 1)), (amplitude_law (beta_ d) (peak e - offset e) (Rabs (peak_at e f - offset e)));
      simpl; try reflexivity. f_equal. ring.
  - unfold nse_losses in *. rewrite S in EV. rewrite S'. simpl bind in *.
    rewrite ED in EV. rewrite ED'. simpl bind in *. took EV l El. injection EV as <-.
    cbn [samples faster peak offset]. rewrite map_length, integrated_faster, El by exact C. simpl bind. f_equal.
    rewrite slope_quicker, <- temperature_scale by exact C. f_equal.
    destruct (kn n d), (cpow (peak e - offset e) (beta_ d - alpha_ d)), (slope_integral (alpha_ d) l);
      simpl; try reflexivity. f_equal. field. lra.
  - unfold barg_losses in *. rewrite S in EV. rewrite S'. simpl bind in *.
    rewrite ED in EV. rewrite ED'. simpl bind in *. took EV duty Eduty. injection EV as <-.
    assert (SS : map snd (samples (faster c e)) = map snd (samples e)).
    { cbn [samples faster]. rewrite map_map. reflexivity. }
    cbn [samples faster] in *. rewrite SS, Eduty. simpl bind. f_equal. rewrite peak_faster by exact C. cbn [peak offset faster].
    rewrite cpow_scale by exact C. unfold with_temperature.
    destruct (cpow f (alpha_ d)), (amplitude_law (beta_ d) (peak e - offset e) (Rabs (peak_at e f - offset e)));
      simpl; try reflexivity. f_equal. ring.
Qed.

(** A triangle at 1 kHz: every model gives a positive loss, so both laws apply. *)
Definition triangle : excitation :=
  {| frequency := 1000; current_points := 3; current_harmonics := None;
     peak := 1; offset := 0; peak_to_peak := 2; harmonics := None;
     samples := [(0, -(1)); (1 / 2000, 1); (1 / 1000, -(1))] |}.
Definition ferrite : steinmetz :=
  {| k_ := 3; alpha_ := 3 / 2; beta_ := 5 / 2; ct0 := None; ct1 := None; ct2 := None;
     minimum_frequency := Some 1; maximum_frequency := Some 1000000 |}.

Lemma triangle_switching : switching_frequency triangle = Ok 1000.
Proof. unfold switching_frequency. simpl. destruct (Rlt_dec 1000 400); reflexivity. Qed.
Lemma ferrite_datum : forall f, 1 <= f <= 1000000 -> datum None [ferrite] f = Ok ferrite.
Proof.
  intros f F. unfold datum, coefficients. simpl.
  destruct (Rle_dec 1 f); [|lra]. destruct (Rle_dec f 1000000); [reflexivity|lra].
Qed.

Lemma triangle_span : span (samples triangle) = 1 / 1000.
Proof. unfold span. simpl. lra. Qed.

Lemma slope_positive : forall alpha l, 0 < alpha -> l <> [] ->
  (forall i, In i l -> 0 < fst i /\ snd i <> 0) -> exists x, slope_integral alpha l = Some x /\ 0 < x.
Proof.
  intros alpha l A. induction l as [|[dt db] l IH]; intros N P; [contradiction|].
  destruct (P (dt, db) (or_introl eq_refl)) as [T B]. cbn [fst snd] in T, B.
  assert (S : exists y, slope_term alpha (dt, db) = Some y /\ 0 < y).
  { unfold slope_term. cbn [fst snd]. destruct (Req_EM_T dt 0); [lra|].
    assert (0 < Rabs (db / dt)).
    { apply Rabs_pos_lt. apply Rmult_integral_contrapositive_currified; [exact B|].
      apply Rinv_neq_0_compat. lra. }
    rewrite cpow_pos by assumption. simpl. eexists. split; [reflexivity|].
    apply Rmult_lt_0_compat; [apply Rpower_pos|exact T]. }
  destruct S as (y & S & Y). unfold slope_integral. simpl. rewrite S.
  destruct l as [|i l].
  - simpl. exists (y + 0). split; [reflexivity|lra].
  - destruct IH as (x & E & X); [discriminate|intros j J; apply P; right; exact J|].
    unfold slope_integral in E. rewrite E. simpl. exists (y + x). split; [reflexivity|lra].
Qed.

Lemma cosine_positive : forall alpha two, 0 < alpha -> 0 < two ->
  exists x, cosine_integral 2 alpha (Some two) = Some x /\ 0 < x.
Proof.
  intros alpha two A T. unfold cosine_integral, seq, map.
  replace (INR 0 * 2 * PI / INR 2) with 0 by (simpl; field).
  replace (INR 1 * 2 * PI / INR 2) with PI by (simpl; field).
  rewrite cos_0, cos_PI. replace (-1) with (-(1)) by ring. rewrite Rabs_Ropp, Rabs_R1, cpow_pos by lra.
  unfold fmul, fmap2, fdiv. destruct (Req_EM_T (INR 2) 0) as [Z|_]; [simpl in Z; lra|].
  simpl fsum. eexists. split; [reflexivity|].
  assert (P : 0 < Rpower 1 alpha * two * 2 * PI / (1 + 1)).
  { apply Rmult_lt_0_compat; [|lra]. apply Rmult_lt_0_compat; [|apply PI_RGT_0].
    apply Rmult_lt_0_compat; [|lra]. apply Rmult_lt_0_compat; [apply Rpower_pos|exact T]. }
  lra.
Qed.

Example C127_witness : exists v w,
  igse_losses 2 None [ferrite] triangle 25 = Ok (Some v) /\ 0 < v /\
  steinmetz_losses None [ferrite] triangle 25 = Ok (Some w) /\ 0 < w /\
  igse_losses 2 None [ferrite] (stronger 2 triangle) 25 = Ok (Some (Rpower 2 (5 / 2) * v)) /\
  igse_losses 2 None [ferrite] (faster 2 triangle) 25 = Ok (Some (Rpower 2 (3 / 2) * v)).
Proof.
  assert (EI : exists v, igse_losses 2 None [ferrite] triangle 25 = Ok (Some v) /\ 0 < v).
  { unfold igse_losses. rewrite triangle_switching. simpl bind.
    rewrite ferrite_datum by lra. simpl bind.
    rewrite igse_points_whole by (try rewrite triangle_span; simpl; lra).
    rewrite integrated_whole by discriminate. simpl bind.
    destruct (slope_positive (3 / 2) (steps (samples triangle))) as (x & E & X); [lra|discriminate| |].
    { simpl. intros i [<-|[<-|[]]]; cbn [fst snd]; lra. }
    change (alpha_ ferrite) with (3 / 2) in *. change (beta_ ferrite) with (5 / 2) in *.
    replace (slope_integral _ _) with (Some x) by (symmetry; exact E).
    unfold ki. change (alpha_ ferrite) with (3 / 2). change (beta_ ferrite) with (5 / 2). change (k_ ferrite) with 3.
    pose proof PI_RGT_0. rewrite !cpow_pos by lra.
    destruct (cosine_positive (3 / 2) (Rpower 2 (5 / 2 - 3 / 2))) as (y & EY & Y); [lra|apply Rpower_pos|].
    rewrite EY. change (peak_to_peak_at triangle 1000) with 2.
    rewrite cpow_pos by lra. unfold fmul, fmap2, fdiv.
    pose proof (Rpower_pos (2 * PI) (3 / 2 - 1)) as P1. pose proof (Rpower_pos 2 (5 / 2 - 3 / 2)) as P2.
    destruct (Req_EM_T (Rpower (2 * PI) (3 / 2 - 1) * y) 0) as [Z|_].
    { exfalso. apply Rmult_integral in Z. lra. }
    unfold with_temperature, fmul, fmap2. eexists. split; [reflexivity|].
    apply Rmult_lt_0_compat; [|apply temperature_factor_pos].
    apply Rmult_lt_0_compat; [|exact X]. apply Rmult_lt_0_compat; [|lra].
    apply Rmult_lt_0_compat; [|exact P2]. apply Rmult_lt_0_compat; [lra|].
    apply Rinv_0_lt_compat. apply Rmult_lt_0_compat; assumption. }
  assert (ES : exists w, steinmetz_losses None [ferrite] triangle 25 = Ok (Some w) /\ 0 < w).
  { unfold steinmetz_losses. rewrite triangle_switching. simpl bind. rewrite ferrite_datum by lra. simpl bind.
    change (alpha_ ferrite) with (3 / 2) in *. change (beta_ ferrite) with (5 / 2) in *. change (k_ ferrite) with 3.
    change (peak_at triangle 1000) with 1. change (peak triangle) with 1. change (offset triangle) with 0.
    replace (1 - 0) with 1 by ring. rewrite Rabs_R1. unfold amplitude_law.
    destruct (Rlt_dec 2 (5 / 2)); [|lra]. rewrite !cpow_pos by lra. unfold with_temperature, fmul, fmap2.
    eexists. split; [reflexivity|]. apply Rmult_lt_0_compat; [|apply temperature_factor_pos].
    apply Rmult_lt_0_compat; apply Rmult_lt_0_compat; try apply Rpower_pos; lra. }
  destruct EI as (v & EV & V). destruct ES as (w & EW & W). exists v, w. repeat split; try assumption.
  - pose proof (C127_flux_density _ None [ferrite] triangle 25 2 1000 ferrite _ (ByIgse 2) ltac:(lra)
                  triangle_switching (ferrite_datum 1000 ltac:(lra)) EV) as H. exact H.
  - pose proof (C127_frequency _ None [ferrite] triangle 25 2 ferrite _ (ByIgse 2) ltac:(lra) ltac:(simpl; lra)
                  eq_refl (ferrite_datum 1000 ltac:(lra)) (ferrite_datum (2 * 1000) ltac:(lra)) EV) as H. exact H.
Qed.

Print Assumptions C127_flux_density.
Print Assumptions C127_frequency.
