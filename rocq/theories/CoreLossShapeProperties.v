(** * Core losses: the shape of the waveform (C128, C129) *)
From Coq Require Import Reals List Lra Lia ZArith String Permutation.
From Verif Require Import Base SizingModel SizingProofs CoreLossModel CoreLossProofs CoreLossShapeProofs
  CoreLossScaleProperties.
Import ListNotations.
Local Open Scope R_scope.

(** ** C128: only durations and changes matter *)

(** The same excitation with other samples. *)
Definition resampled (e : excitation) (s : list (R * R)) : excitation :=
  {| frequency := frequency e; current_points := current_points e; current_harmonics := current_harmonics e;
     peak := peak e; offset := offset e; peak_to_peak := peak_to_peak e; harmonics := harmonics e; samples := s |}.

(** The models that integrate over the samples. *)
Inductive integral_model : (option steinmetz -> list steinmetz -> excitation -> R -> outcome figure) -> Prop :=
| OfIgse : forall n, integral_model (igse_losses n)
| OfCigse : forall n, integral_model (cigse_losses n)
| OfAlbach : integral_model albach_losses
| OfMse : integral_model mse_losses
| OfNse : forall n, integral_model (nse_losses n).

(** The record is integrated whole: it lasts one period and a half at most of the
    frequency the losses are taken at, which is not above that of the excitation. *)
Definition whole (e : excitation) : Prop :=
  exists f, switching_frequency e = Ok f /\ 0 < f <= frequency e /\ span (samples e) <= 3 / 2 * (1 / f).

(** The loss is a function of the durations and the changes between consecutive
    samples, in any order. *)
Theorem C128_moves : forall model loaded ranges e s t,
  integral_model model -> whole e -> samples e <> [] -> s <> [] ->
  Permutation (moves (samples e)) (moves s) ->
  model loaded ranges (resampled e s) t = model loaded ranges e t.
Proof.
  intros model loaded ranges e s t M (f & EF & [F0 F] & W) N N' P.
  assert (SW : switching_frequency (resampled e s) = Ok f) by exact EF.
  pose proof (span_permutation _ _ P) as SP.
  assert (W' : span (samples (resampled e s)) <= 3 / 2 * (1 / f)) by (simpl; rewrite <- SP; exact W).
  assert (L : forall alpha, slope_integral alpha (steps s) = slope_integral alpha (steps (samples e))).
  { intros alpha. rewrite !slope_moves. apply slope_permutation, Permutation_sym, P. }
  assert (IG : forall n l, igse_losses n l ranges (resampled e s) t = igse_losses n l ranges e t).
  { intros n l. unfold igse_losses. rewrite SW, EF. simpl bind.
    rewrite (igse_points_whole (resampled e s) f), (igse_points_whole e f)
      by (try assumption; simpl; lra).
    change (samples (resampled e s)) with s. rewrite !integrated_whole by assumption.
    change (peak_to_peak_at (resampled e s) f) with (peak_to_peak_at e f).
    destruct (datum l ranges f); simpl bind; try reflexivity. rewrite L. reflexivity. }
  destruct M.
  - apply IG.
  - apply IG.
  - unfold albach_losses, equivalent_losses. rewrite SW, EF. simpl bind.
    change (samples (resampled e s)) with s in *. rewrite !one_period_whole by assumption.
    rewrite !integrated_whole by assumption.
    change (peak_to_peak_at (resampled e s) f) with (peak_to_peak_at e f).
    destruct (datum loaded ranges f); simpl bind; try reflexivity.
    rewrite !albach_moves, (albach_permutation _ _ _ P). reflexivity.
  - unfold mse_losses, equivalent_losses. rewrite SW, EF. simpl bind.
    change (samples (resampled e s)) with s in *. rewrite !one_period_whole by assumption.
    rewrite !integrated_whole by assumption.
    change (peak_to_peak_at (resampled e s) f) with (peak_to_peak_at e f).
    destruct (datum loaded ranges f); simpl bind; try reflexivity.
    rewrite !mse_moves, (mse_permutation _ _ _ P). reflexivity.
  - unfold nse_losses. rewrite SW, EF. simpl bind. change (samples (resampled e s)) with s.
    rewrite !integrated_whole by assumption.
    destruct (datum loaded ranges f); simpl bind; try reflexivity. rewrite L. reflexivity.
Qed.

(** Hence a waveform may be delayed, raised by a constant and mirrored, *)
Theorem C128_delay_bias_mirror : forall model loaded ranges e t delay bias,
  integral_model model -> whole e -> samples e <> [] ->
  model loaded ranges (resampled e (map (fun p => (fst p + delay, snd p + bias)) (samples e))) t =
    model loaded ranges e t /\
  model loaded ranges (resampled e (map (fun p => (fst p, - snd p)) (samples e))) t = model loaded ranges e t.
Proof.
  intros model loaded ranges e t delay bias M W N. split.
  - apply C128_moves; try assumption.
    + intros E. apply map_eq_nil in E. contradiction.
    + rewrite moves_map; [apply Permutation_refl| |]; intros a b; simpl; [ring|f_equal; ring].
  - apply C128_moves; try assumption.
    + intros E. apply map_eq_nil in E. contradiction.
    + rewrite moves_map; [apply Permutation_refl| |]; intros a b; simpl; [ring|].
      rewrite <- Rabs_Ropp. f_equal. ring.
Qed.

(** played backwards, *)
Theorem C128_backwards : forall model loaded ranges e t c,
  integral_model model -> whole e -> samples e <> [] ->
  model loaded ranges (resampled e (rev (map (fun p => (c - fst p, snd p)) (samples e)))) t =
  model loaded ranges e t.
Proof.
  intros model loaded ranges e t c M W N. apply C128_moves; try assumption.
  - intros E. apply (f_equal (@List.length _)) in E. rewrite rev_length, map_length in E.
    destruct (samples e); [contradiction|discriminate].
  - apply Permutation_sym, moves_rev.
Qed.

(** and, when it closes after the time [period], started at any of its samples. *)
Theorem C128_started_elsewhere : forall model loaded ranges e t first a p b period,
  integral_model model -> whole e -> samples e = first :: a ++ p :: b ->
  last (p :: b) p = (fst first + period, snd first) ->
  model loaded ranges
    (resampled e ((p :: b) ++ map (fun q => (fst q + period, snd q)) (a ++ [p]))) t =
  model loaded ranges e t.
Proof.
  intros model loaded ranges e t first a p b period M W ES EL.
  apply C128_moves; try assumption; try (rewrite ES); try discriminate.
  set (sh := fun q : R * R => (fst q + period, snd q)).
  assert (M1 : moves (map sh (first :: a ++ [p])) = moves (first :: a ++ [p])).
  { apply moves_map; intros x y; simpl; [ring|reflexivity]. }
  destruct (exists_last (l := p :: b) ltac:(discriminate)) as (r & z & E).
  assert (Z : z = sh first).
  { rewrite E, last_last in EL. exact EL. }
  assert (E2 : moves ((p :: b) ++ map sh (a ++ [p])) =
               (moves (p :: b) ++ moves (sh first :: map sh (a ++ [p])))%list).
  { rewrite E, <- app_assoc. simpl app. rewrite moves_app, Z. reflexivity. }
  rewrite E2. change (sh first :: map sh (a ++ [p])) with (map sh (first :: a ++ [p])). rewrite M1.
  change (first :: a ++ p :: b) with ((first :: a) ++ p :: b). rewrite moves_app. simpl app.
  apply Permutation_app_comm.
Qed.

(** A sample added on the straight line between two others changes nothing. *)
Theorem C128_straight_line : forall model loaded ranges e t a p q b t1 t2 m,
  integral_model model -> whole e -> samples e = a ++ p :: q :: b ->
  0 < t1 -> 0 < t2 -> q = (fst p + (t1 + t2), snd p + m * (t1 + t2)) ->
  model loaded ranges (resampled e (a ++ p :: (fst p + t1, snd p + m * t1) :: q :: b)) t =
  model loaded ranges e t.
Proof.
  intros model loaded ranges e t a p q b t1 t2 m M (f & EF & [F0 F] & W) ES T1 T2 EQ.
  set (s := a ++ p :: (fst p + t1, snd p + m * t1) :: q :: b).
  assert (SW : switching_frequency (resampled e s) = Ok f) by exact EF.
  assert (N : samples e <> []) by (rewrite ES; destruct a; discriminate).
  assert (N' : s <> []) by (unfold s; destruct a; discriminate).
  assert (S1 : steps (samples e) = (steps (a ++ [p]) ++ (t1 + t2, m * (t1 + t2)) :: steps (q :: b))%list).
  { rewrite ES, steps_app. f_equal. rewrite EQ. simpl steps at 1. cbn [fst snd]. f_equal. f_equal; ring. }
  assert (S2 : steps s = (steps (a ++ [p]) ++ (t1, m * t1) :: (t2, m * t2) :: steps (q :: b))%list).
  { unfold s. rewrite steps_app. f_equal.
    change (steps (p :: (fst p + t1, snd p + m * t1) :: q :: b))
      with ((fst p + t1 - fst p, snd p + m * t1 - snd p)
            :: (fst q - (fst p + t1), snd q - (snd p + m * t1)) :: steps (q :: b)).
    apply (f_equal2 cons); [f_equal; ring|]. apply (f_equal2 cons); [|reflexivity].
    rewrite EQ. cbn [fst snd]. f_equal; ring. }
  assert (SP : span s = span (samples e)).
  { unfold span. rewrite !moves_steps, !map_map, S1, S2, !map_app, !sumR_app. cbn [map sumR fst]. ring. }
  assert (W' : span (samples (resampled e s)) <= 3 / 2 * (1 / f)) by (simpl; rewrite SP; exact W).
  assert (T : forall term, term (t1 + t2, m * (t1 + t2)) = fadd (term (t1, m * t1)) (term (t2, m * t2)) ->
              fsum (map term (steps s)) = fsum (map term (steps (samples e)))).
  { intros term ET. rewrite S1, S2, !map_app, !fsum_app. f_equal. cbn [map fsum fold_right].
    rewrite ET, fadd_assoc. reflexivity. }
  assert (L : forall alpha, slope_integral alpha (steps s) = slope_integral alpha (steps (samples e))).
  { intros alpha. apply T, slope_split; assumption. }
  assert (IG : forall n l, igse_losses n l ranges (resampled e s) t = igse_losses n l ranges e t).
  { intros n l. unfold igse_losses. rewrite SW, EF. simpl bind.
    rewrite (igse_points_whole (resampled e s) f), (igse_points_whole e f)
      by (try assumption; simpl; lra).
    change (samples (resampled e s)) with s. rewrite !integrated_whole by assumption.
    change (peak_to_peak_at (resampled e s) f) with (peak_to_peak_at e f).
    destruct (datum l ranges f); simpl bind; try reflexivity. rewrite L. reflexivity. }
  destruct M.
  - apply IG.
  - apply IG.
  - unfold albach_losses, equivalent_losses. rewrite SW, EF. simpl bind.
    change (samples (resampled e s)) with s in *. rewrite !one_period_whole by assumption.
    rewrite !integrated_whole by assumption.
    change (peak_to_peak_at (resampled e s) f) with (peak_to_peak_at e f).
    destruct (datum loaded ranges f); simpl bind; try reflexivity.
    unfold albach_frequency. rewrite T by (apply albach_split; assumption). reflexivity.
  - unfold mse_losses, equivalent_losses. rewrite SW, EF. simpl bind.
    change (samples (resampled e s)) with s in *. rewrite !one_period_whole by assumption.
    rewrite !integrated_whole by assumption.
    change (peak_to_peak_at (resampled e s) f) with (peak_to_peak_at e f).
    destruct (datum loaded ranges f); simpl bind; try reflexivity.
    unfold mse_frequency. rewrite T by (apply mse_split; assumption). reflexivity.
  - unfold nse_losses. rewrite SW, EF. simpl bind. change (samples (resampled e s)) with s.
    rewrite !integrated_whole by assumption.
    destruct (datum loaded ranges f); simpl bind; try reflexivity. rewrite L. reflexivity.
Qed.

(** But a vertical edge (two samples at the same time, as in a square wave) gives
    a value that is not finite. *)
Lemma fsum_none : forall l, In None l -> fsum l = None.
Proof.
  induction l as [|x l IH]; intros I; [contradiction|]. destruct I as [->|I]; simpl; [reflexivity|].
  fold (fsum l). rewrite IH by exact I. destruct x; reflexivity.
Qed.

Theorem C128_vertical_edge_refuted : forall model loaded ranges e t a x y y' b v,
  integral_model model -> whole e -> samples e = a ++ (x, y) :: (x, y') :: b ->
  model loaded ranges e t = Ok v -> v = None.
Proof.
  intros model loaded ranges e t a x y y' b v M (f & EF & [F0 F] & W) ES EV.
  assert (N : samples e <> []) by (rewrite ES; destruct a; discriminate).
  assert (I : In (0, y' - y) (steps (samples e))).
  { rewrite ES, steps_app. apply in_or_app. right.
    change (steps ((x, y) :: (x, y') :: b)) with ((x - x, y' - y) :: steps ((x, y') :: b)).
    left. f_equal. ring. }
  assert (T : forall term, term (0, y' - y) = None -> fsum (map term (steps (samples e))) = None).
  { intros term ET. apply fsum_none. rewrite <- ET. apply in_map. exact I. }
  assert (Z : forall P Q : figure, (if Req_EM_T 0 0 then P else Q) = P).
  { intros P Q. destruct (Req_EM_T 0 0); [reflexivity|lra]. }
  assert (IG : forall n l, igse_losses n l ranges e t = Ok v -> v = None).
  { intros n l H. unfold igse_losses in H. rewrite EF in H. simpl bind in H. took H d Ed.
    rewrite (igse_points_whole e f), integrated_whole in H by (try assumption; lra). simpl bind in H.
    injection H as <-. unfold slope_integral. rewrite T by (unfold slope_term; apply Z).
    destruct (ki n d), (cpow (peak_to_peak_at e f) (beta_ d - alpha_ d)); reflexivity. }
  destruct M.
  - apply (IG _ _ EV).
  - apply (IG _ _ EV).
  - unfold albach_losses, equivalent_losses in EV. rewrite EF in EV. simpl bind in EV. took EV d Ed.
    rewrite one_period_whole, integrated_whole in EV by assumption. simpl bind in EV. injection EV as <-.
    unfold albach_frequency. rewrite T.
    + destruct (amplitude_law (beta_ d) (peak e - offset e) (Rabs (peak_at e f - offset e))); reflexivity.
    + unfold albach_term, fdiv. cbn [fst snd]. destruct (Req_EM_T (peak_to_peak_at e f) 0); [reflexivity|apply Z].
  - unfold mse_losses, equivalent_losses in EV. rewrite EF in EV. simpl bind in EV. took EV d Ed.
    rewrite one_period_whole, integrated_whole in EV by assumption. simpl bind in EV. injection EV as <-.
    unfold mse_frequency. rewrite T by (unfold mse_term; apply Z).
    destruct (fdiv (Some (2 / PI ^ 2)) (Some (peak_to_peak_at e f ^ 2)));
    destruct (amplitude_law (beta_ d) (peak e - offset e) (Rabs (peak_at e f - offset e))); reflexivity.
  - unfold nse_losses in EV. rewrite EF in EV. simpl bind in EV. took EV d Ed.
    rewrite integrated_whole in EV by assumption. simpl bind in EV. injection EV as <-.
    unfold slope_integral. rewrite T by (unfold slope_term; apply Z).
    destruct (kn n d), (cpow (peak e - offset e) (beta_ d - alpha_ d)); reflexivity.
Qed.

(** A triangle is such an excitation. *)
Example C128_witness :
  whole triangle /\
  igse_losses 2 None [ferrite] (resampled triangle [(0, 1); (1 / 2000, -(1)); (1 / 1000, 1)]) 25 =
  igse_losses 2 None [ferrite] triangle 25 /\
  exists v, igse_losses 2 None [ferrite] triangle 25 = Ok (Some v) /\ 0 < v.
Proof.
  assert (W : whole triangle).
  { exists 1000. split; [exact triangle_switching|]. rewrite triangle_span. simpl. lra. }
  split; [exact W|]. split.
  - pose proof (proj2 (C128_delay_bias_mirror _ None [ferrite] triangle 25 0 0 (OfIgse 2) W ltac:(discriminate))) as H.
    rewrite <- H. do 2 f_equal. simpl. replace (-- (1)) with 1 by ring. reflexivity.
  - destruct C127_witness as (v & w & E & V & _). exists v. auto.
Qed.

(** ** C129: among the waveforms of the same swing, the triangle loses the least *)

(** The symmetric triangle of that peak to peak and that frequency. *)
Definition triangle_of (e : excitation) : excitation :=
  resampled e [(0, - peak_to_peak e / 2); (1 / frequency e / 2, peak_to_peak e / 2);
               (1 / frequency e, - peak_to_peak e / 2)].

(** One period, time going forward, closed, reaching from [low] to [high] as far
    apart as the peak to peak says. *)
Record one_cycle (e : excitation) : Prop := {
  forward : forall i, In i (moves (samples e)) -> 0 < fst i;
  lasts : span (samples e) = 1 / frequency e;
  closed : exists first last_, hd_error (samples e) = Some first /\ last (samples e) first = last_ /\
           snd last_ = snd first;
  swings : exists low high, In low (samples e) /\ In high (samples e) /\
           snd high - snd low = peak_to_peak e }.

Lemma in_order : forall (A : Type) (p q : A) l, In p l -> In q l ->
  p = q \/ exists a b c, l = a ++ p :: b ++ q :: c \/ l = a ++ q :: b ++ p :: c.
Proof.
  intros A p q l P Q. apply in_split in P as (a & b & ->).
  apply in_app_or in Q as [Q|[Q|Q]]; [|left; congruence|].
  - right. apply in_split in Q as (c & d & ->). exists c, d, b. right. rewrite <- app_assoc. reflexivity.
  - right. apply in_split in Q as (c & d & ->). exists a, c, d. left. reflexivity.
Qed.

Lemma cycle_variation : forall e, one_cycle e -> 0 < peak_to_peak e ->
  2 * peak_to_peak e <= sumR (map snd (moves (samples e))).
Proof.
  intros e [_ _ (first & z & EH & EL & EZ) (low & high & IL & IH & E)] P.
  assert (LA : forall (x y : R * R) l, last (l ++ [x]) y = x) by (intros; apply last_last).
  assert (G : forall a x b y c, samples e = a ++ x :: b ++ y :: c -> snd (last (y :: c) y) = snd first).
  { intros a x b y c ES. rewrite <- EZ, <- EL, ES. f_equal.
    destruct (exists_last (l := y :: c) ltac:(discriminate)) as (r & w & EW). rewrite EW.
    replace (a ++ x :: b ++ r ++ [w]) with ((a ++ x :: b ++ r) ++ [w])
      by (rewrite <- app_assoc; simpl; rewrite <- app_assoc; reflexivity).
    rewrite !LA. reflexivity. }
  destruct (in_order _ low high _ IL IH) as [->|(a & b & c & [ES|ES])].
  - lra.
  - pose proof (G _ _ _ _ _ ES) as GL. rewrite ES in EH.
    pose proof (closed_swing a low b high c first EH GL) as H. rewrite ES. rewrite E, Rabs_pos_eq in H by lra. exact H.
  - pose proof (G _ _ _ _ _ ES) as GL. rewrite ES in EH.
    pose proof (closed_swing a high b low c first EH GL) as H.
    rewrite ES. rewrite (Rabs_minus_sym (snd low)), E, Rabs_pos_eq in H by lra. exact H.
Qed.

Lemma slope_sum : forall alpha l, 0 < alpha -> (forall i, In i l -> 0 < fst i /\ 0 <= snd i) ->
  slope_integral alpha l = Some (sumR (map (fun i => pw (snd i / fst i) alpha * fst i) l)).
Proof.
  intros alpha l A P. unfold slope_integral. apply fsum_some. intros [dt db] I.
  destruct (P _ I) as [T B]. cbn [fst snd] in T, B. unfold slope_term. cbn [fst snd].
  destruct (Req_EM_T dt 0); [lra|].
  assert (0 <= db / dt) by (apply Rmult_le_pos; [exact B|left; apply Rinv_0_lt_compat; exact T]).
  rewrite Rabs_pos_eq, cpow_pw by assumption. reflexivity.
Qed.

Lemma moves_nonneg : forall s i, In i (moves s) -> 0 <= snd i.
Proof. intros s i I. rewrite moves_steps in I. apply in_map_iff in I as (j & <- & _). apply Rabs_pos. Qed.

(** Every periodic waveform loses at least what the triangle of its peak to peak
    and frequency does (iGSE, [alpha] of 1 at least). *)
Theorem C129_triangle_least : forall n loaded ranges e t d v w,
  one_cycle e -> 400 <= frequency e -> harmonics e = None -> 0 < peak_to_peak e ->
  datum loaded ranges (frequency e) = Ok d -> 0 <= k_ d -> 1 <= alpha_ d -> (0 < n)%nat ->
  igse_losses n loaded ranges (triangle_of e) t = Ok (Some w) ->
  igse_losses n loaded ranges e t = Ok (Some v) ->
  w <= v.
Proof.
  intros n loaded ranges e t d v w CY F H P ED K A NN ET EV.
  set (f := frequency e) in *. set (B := peak_to_peak e) in *.
  pose proof (cycle_variation e CY P) as VAR. destruct CY as [FW LA CL SW]. fold f in LA. fold B in VAR.
  assert (F0 : 0 < f) by lra.
  assert (IF : 0 < 1 / f) by (apply Rmult_lt_0_compat; [lra|apply Rinv_0_lt_compat; lra]).
  assert (S : forall s, switching_frequency (resampled e s) = Ok f).
  { intros s. unfold switching_frequency. cbn [frequency resampled]. fold f. destruct (Rlt_dec f 400); [lra|reflexivity]. }
  assert (S0 : switching_frequency e = Ok f) by exact (S []).
  set (tri := [(0, - B / 2); (1 / f / 2, B / 2); (1 / f, - B / 2)]) in *.
  assert (ETR : triangle_of e = resampled e tri) by reflexivity.
  assert (SPT : span tri = 1 / f) by (unfold span, tri; simpl; lra).
  assert (NE : samples e <> []) by (intros Z; destruct CL as (? & ? & Z' & _); rewrite Z in Z'; discriminate).
  assert (SG : peak_to_peak_at e f = B) by (unfold peak_to_peak_at, harmonic_at; rewrite H; reflexivity).
  unfold igse_losses in ET, EV. rewrite ETR, S in ET. rewrite S0 in EV. cbn [bind] in ET, EV.
  rewrite ED in ET, EV. cbn [bind] in ET, EV.
  assert (W1 : igse_points (resampled e tri) f = List.length (samples (resampled e tri))).
  { apply igse_points_whole; cbn [frequency samples resampled]; fold f; try rewrite SPT; lra. }
  assert (W2 : igse_points e f = List.length (samples e)).
  { apply igse_points_whole; fold f; try rewrite LA; lra. }
  rewrite W1 in ET. rewrite W2 in EV. rewrite integrated_whole in ET by discriminate.
  rewrite integrated_whole in EV by assumption. cbn [bind] in ET, EV.
  change (samples (resampled e tri)) with tri in ET.
  change (peak_to_peak_at (resampled e tri) f) with (peak_to_peak_at e f) in ET. rewrite SG in ET, EV.
  rewrite slope_moves in ET, EV.
  rewrite (slope_sum _ (moves (samples e))) in EV.
  2: lra.
  2: { intros i I. split; [apply FW, I|apply (moves_nonneg _ _ I)]. }
  rewrite (slope_sum _ (moves tri)) in ET.
  2: lra.
  2: { intros i I. split; [|apply (moves_nonneg _ _ I)].
       simpl in I. destruct I as [<-|[<-|[]]]; cbn [fst]; lra. }
  rewrite cpow_pos in ET, EV by exact P.
  injection ET as ET. injection EV as EV.
  destruct (ki n d) as [q|] eqn:EQ; [|discriminate]. simpl in ET, EV. injection ET as <-. injection EV as <-.
  apply Rmult_le_compat_r; [left; apply temperature_factor_pos|].
  assert (Q : 0 <= q).
  { unfold ki in EQ. pose proof PI_RGT_0. rewrite !cpow_pos in EQ by lra.
    assert (CI : forall x, cosine_integral n (alpha_ d) (Some (Rpower 2 (beta_ d - alpha_ d))) = Some x -> 0 <= x).
    { intros x E. unfold cosine_integral in E.
      rewrite (fsum_some _ _ (fun i => pw (Rabs (cos (INR i * 2 * PI / INR n))) (alpha_ d)
                               * Rpower 2 (beta_ d - alpha_ d) * 2 * PI / INR n)) in E.
      - injection E as <-. apply sumR_nonneg. intros x X. apply in_map_iff in X as (i & <- & _).
        apply Rmult_le_pos; [|left; apply Rinv_0_lt_compat, lt_0_INR; exact NN].
        apply Rmult_le_pos; [|lra]. apply Rmult_le_pos; [|lra].
        apply Rmult_le_pos; [apply pw_nonneg|left; apply Rpower_pos].
      - intros i _. rewrite cpow_pw by (try apply Rabs_pos; lra). unfold fmul, fmap2, fdiv.
        destruct (Req_EM_T (INR n) 0) as [Z|_]; [|reflexivity].
        exfalso. pose proof (lt_0_INR n NN). lra. }
    destruct (cosine_integral n (alpha_ d) (Some (Rpower 2 (beta_ d - alpha_ d)))) as [x|]; [|discriminate].
    pose proof (CI x eq_refl) as X. unfold fmul, fmap2, fdiv in EQ.
    destruct (Req_EM_T (Rpower (2 * PI) (alpha_ d - 1) * x) 0) as [_|Z]; [discriminate|].
    injection EQ as <-. apply Rmult_le_pos; [exact K|]. left. apply Rinv_0_lt_compat.
    pose proof (Rpower_pos (2 * PI) (alpha_ d - 1)).
    destruct X as [X| <-]; [apply Rmult_lt_0_compat; assumption|exfalso; apply Z; ring]. }
  apply Rmult_le_compat_l.
  { apply Rmult_le_pos; [|lra]. apply Rmult_le_pos; [exact Q|left; apply Rpower_pos]. }
  (* the power means *)
  assert (PM := power_mean (moves (samples e)) (alpha_ d) (1 / f) _ A
                  (fun i I => conj (FW i I) (moves_nonneg _ i I)) LA eq_refl IF).
  eapply Rle_trans; [|exact PM].
  assert (D1 : Rabs (B / 2 - - B / 2) = B) by (replace (B / 2 - - B / 2) with B by field; apply Rabs_pos_eq; lra).
  assert (D2 : Rabs (- B / 2 - B / 2) = B).
  { replace (- B / 2 - B / 2) with (- B) by field. rewrite Rabs_Ropp. apply Rabs_pos_eq. lra. }
  unfold tri. cbn [moves map sumR fst snd]. rewrite D1, D2.
  replace (B / (1 / f / 2 - 0)) with (2 * B / (1 / f)) by (field; lra).
  replace (B / (1 / f - 1 / f / 2)) with (2 * B / (1 / f)) by (field; lra).
  replace (pw (2 * B / (1 / f)) (alpha_ d) * (1 / f / 2 - 0) +
           (pw (2 * B / (1 / f)) (alpha_ d) * (1 / f - 1 / f / 2) + 0))
    with (1 / f * pw (2 * B / (1 / f)) (alpha_ d)) by (field; lra).
  apply Rmult_le_compat_l; [lra|]. apply pw_mono; [lra|].
  assert (II : 0 < / (1 / f)) by (apply Rinv_0_lt_compat; exact IF).
  split; [apply Rmult_le_pos; lra|]. apply Rmult_le_compat_r; [lra|exact VAR].
Qed.

(** A trapezoid meets all of it, and does lose more. *)
Definition trapezoid : excitation :=
  {| frequency := 1000; current_points := 3; current_harmonics := None;
     peak := 1; offset := 0; peak_to_peak := 2; harmonics := None;
     samples := [(0, -(1)); (1 / 4000, 1); (2 / 4000, 1); (3 / 4000, -(1)); (4 / 4000, -(1))] |}.

Example C129_witness :
  one_cycle trapezoid /\ 400 <= frequency trapezoid /\ 0 < peak_to_peak trapezoid /\
  datum None [ferrite] (frequency trapezoid) = Ok ferrite /\
  samples (triangle_of trapezoid) = [(0, - 2 / 2); (1 / 1000 / 2, 2 / 2); (1 / 1000, - 2 / 2)] /\
  (exists w, igse_losses 2 None [ferrite] (triangle_of trapezoid) 25 = Ok (Some w) /\ 0 < w) /\
  exists v, igse_losses 2 None [ferrite] trapezoid 25 = Ok (Some v).
Proof.
  split; [|split; [simpl; lra|split; [simpl; lra|split; [apply ferrite_datum; simpl; lra|split; [reflexivity|]]]]].
  - split.
    + simpl. intros i [<-|[<-|[<-|[<-|[]]]]]; cbn [fst]; lra.
    + unfold span. simpl. lra.
    + exists (0, -(1)), (4 / 4000, -(1)). repeat split; reflexivity.
    + exists (0, -(1)), (1 / 4000, 1). simpl. repeat split; [left; reflexivity|right; left; reflexivity|lra].
  - split.
    + destruct C127_witness as (v & w & E & V & _). exists v. split; [|exact V]. rewrite <- E.
      unfold triangle_of. simpl. unfold igse_losses.
      replace (- (2) / 2) with (-(1)) by field. replace (2 / 2) with 1 by field.
      replace (1 / 1000 / 2) with (1 / 2000) by field. reflexivity.
    + unfold igse_losses.
      assert (S : switching_frequency trapezoid = Ok 1000)
        by (unfold switching_frequency; simpl; destruct (Rlt_dec 1000 400); reflexivity).
      rewrite S. cbn [bind]. rewrite ferrite_datum by lra. cbn [bind].
      assert (SP : span (samples trapezoid) = 1 / 1000) by (unfold span; simpl; lra).
      rewrite igse_points_whole by (try rewrite SP; simpl; lra).
      rewrite integrated_whole by discriminate. cbn [bind]. rewrite slope_moves, slope_sum.
      * unfold ki. change (alpha_ ferrite) with (3 / 2). change (beta_ ferrite) with (5 / 2).
        change (k_ ferrite) with 3. pose proof PI_RGT_0.
        change (peak_to_peak_at trapezoid 1000) with 2.
        rewrite (cpow_pos (2 * PI)), !(cpow_pos 2) by lra.
        destruct (cosine_positive (3 / 2) (Rpower 2 (5 / 2 - 3 / 2))) as (y & EY & Y); [lra|apply Rpower_pos|].
        rewrite EY. unfold fmul, fmap2, fdiv.
        destruct (Req_EM_T (Rpower (2 * PI) (3 / 2 - 1) * y) 0) as [Z|_].
        { exfalso. pose proof (Rpower_pos (2 * PI) (3 / 2 - 1)). apply Rmult_integral in Z. lra. }
        eexists. reflexivity.
      * simpl. lra.
      * intros i I. split; [|apply (moves_nonneg _ _ I)].
        simpl in I. destruct I as [<-|[<-|[<-|[<-|[]]]]]; cbn [fst]; lra.
Qed.

Print Assumptions C128_moves.
Print Assumptions C128_delay_bias_mirror.
Print Assumptions C128_backwards.
Print Assumptions C128_started_elsewhere.
Print Assumptions C128_straight_line.
Print Assumptions C128_vertical_edge_refuted.
Print Assumptions C129_triangle_least.
