(** C102 to C105: the leakage inductances, the inductance matrix and the
    coupling of the windings of a magnetic. *)
From Coq Require Import ZArith QArith Qabs List String Bool Lia Lra Lqa.
From Verif Require Import Base QAux NetworkModel NetworkProofs CantileverModel CantileverProofs CantileverProperties
  InductanceModel InductanceProofs.
From Verif Require NetworkProperties.
Import ListNotations.
Open Scope Q_scope.

(** ** What the statements say *)

(** A magnetic the calls accept: its core and its bobbin are processed, the
    bobbin has a column width, the grid has points and every filament belongs
    to a winding.  [complete] says so. *)

(** The points of the grid lie outside the column they are revolved around. *)
Definition outside_column (m : magnetic) : Prop :=
  let d := m_field m in
  0 <= fd_pi d /\ 0 <= fd_mu d /\ 0 <= fd_area d /\ 0 <= fd_column_depth d /\
  forall w, m_column_width m = Some w -> 0 <= w /\ forall p, In p (fd_points d) ->
    match fd_round_window d, fd_round_column d with
    | false, true => 0 <= p_x p
    | false, false => w <= p_x p
    | true, true => True
    | true, false => w <= Qabs (p_radial p + w)
    end.

(** What the network of reluctances is built from. *)
Definition sound_core (m : magnetic) : Prop :=
  Forall (fun c => 0 < c_height c) (k_columns (m_core m)) /\
  Forall (fun r => 0 <= r) (m_gap_reluctances m) /\ Forall (fun r => 0 <= r) (m_plain_gaps m).

(** Every winding on the main column, or some winding away from it. *)
Definition all_on_main (m : magnetic) : Prop :=
  has_non_main_placement (m_core m) (m_sections m) (m_windings m) = Ok false.
Definition some_off_main (m : magnetic) : Prop :=
  has_non_main_placement (m_core m) (m_sections m) (m_windings m) = Ok true.

(** The entry of a result by names, for two windings by index. *)
Definition entry_of (m : magnetic) (r : named) (i j : nat) : Q :=
  match value_of r (name m i) (name m j) with Some v => v | None => 0 end.

Lemma weights_nonneg : forall m w, outside_column m -> m_column_width m = Some w ->
  forall p, In p (fd_points (m_field m)) -> 0 <= weight (m_field m) w p.
Proof.
  intros m w (P & U & A & D & H) W p I. destruct (H w W) as (WP & HP). specialize (HP p I).
  unfold weight. apply Qmult_le_0_compat.
  - apply Qmult_le_0_compat; [|exact A]. apply Qmult_le_0_compat; [lra | exact U].
  - unfold revolved_length. destruct (fd_round_window (m_field m)), (fd_round_column (m_field m)); cbn [negb].
    + apply Qmult_le_0_compat; [exact P | apply Qabs_nonneg].
    + assert (0 <= fd_pi (m_field m) * (Qabs (p_radial p + w) - w)) by (apply Qmult_le_0_compat; lra). lra.
    + assert (0 <= fd_pi (m_field m) * p_x p) by (apply Qmult_le_0_compat; lra). lra.
    + assert (0 <= fd_pi (m_field m) * (p_x p - w)) by (apply Qmult_le_0_compat; lra). lra.
Qed.

Lemma complete_width : forall m, complete m -> exists w, m_column_width m = Some w.
Proof. intros m (_ & _ & W & _). exact W. Qed.

(** ** C102 *)

Theorem C102_accepts : forall m, complete m -> windings m <> O ->
  exists l, leakage_matrix m = Ok l /\ List.length l = windings m /\
    Forall (fun row => List.length row = windings m) l.
Proof.
  intros m C N. destruct (complete_width m C) as (w & W).
  destruct (leakage_matrix_value m w C W N) as (l & E & L & R & _). exists l. auto.
Qed.

Lemma matrix_coefficient : forall m l w, complete m -> m_column_width m = Some w -> leakage_matrix m = Ok l ->
  windings m <> O /\ List.length l = windings m /\ Forall (fun row => List.length row = windings m) l /\
  forall a b, (a < windings m)%nat -> (b < windings m)%nat -> cell l a b == 4 * coefficient (m_field m) w a b.
Proof.
  intros m l w C W E. assert (N : windings m <> O).
  { intro Z. unfold leakage_matrix in E. rewrite Z in E. discriminate. }
  destruct (leakage_matrix_value m w C W N) as (l' & E' & L & R & V). assert (l' = l) by congruence. subst l'. auto.
Qed.

(** Any currents, of either sign, in all the windings at once: the energy of
    their field is a quarter of the form of the matrix.  The currents are peaks
    of sinusoids, so this is the mean over a cycle. *)
Theorem C102_energy : forall m l currents, complete m -> leakage_matrix m = Ok l ->
  List.length currents = windings m ->
  exists e, field_energy m currents = Ok e /\ 4 * e == quadratic_form (windings m) (cell l) (at_ currents).
Proof.
  intros m l currents C E L. destruct (complete_width m C) as (w & W).
  destruct (matrix_coefficient m l w C W E) as (_ & _ & _ & V).
  destruct (field_energy_value m currents w C W L) as (e & EE & Q). exists e. split; [exact EE|].
  rewrite Q, <- quadratic_scale. apply quadratic_ext; [|intros; reflexivity].
  intros i k I K. symmetry. apply V; assumption.
Qed.

Theorem C102_symmetric : forall m l, complete m -> leakage_matrix m = Ok l -> symmetric (windings m) (cell l).
Proof.
  intros m l C E i k I K. destruct (complete_width m C) as (w & W).
  destruct (matrix_coefficient m l w C W E) as (_ & _ & _ & V).
  rewrite !V by assumption. rewrite coefficient_sym. reflexivity.
Qed.

(** No currents draw energy out of the field. *)
Theorem C102_passive : forall m l v, complete m -> outside_column m -> leakage_matrix m = Ok l ->
  0 <= quadratic_form (windings m) (cell l) v.
Proof.
  intros m l v C O E. destruct (complete_width m C) as (w & W).
  destruct (matrix_coefficient m l w C W E) as (_ & _ & _ & V).
  rewrite (quadratic_ext _ _ (fun i k => 4 * coefficient (m_field m) w i k) v v); [|exact V | intros; reflexivity].
  rewrite quadratic_scale.
  pose proof (coefficient_semidefinite (m_field m) w (windings m) (weights_nonneg m w O W) v). lra.
Qed.

Theorem C102_bound : forall m l a b, complete m -> outside_column m -> leakage_matrix m = Ok l ->
  (a < windings m)%nat -> (b < windings m)%nat ->
  0 <= cell l a a /\ cell l a b * cell l a b <= cell l a a * cell l b b.
Proof.
  intros m l a b C O E A B. apply (semidefinite_bound (windings m)); try assumption.
  - apply C102_symmetric; assumption.
  - intro v. apply C102_passive; assumption.
Qed.

Theorem C102_refuses : forall m currents,
  (m_core_processed m = false -> exists w, field_energy m currents = Throw w) /\
  (m_core_processed m = true -> List.length currents <> windings m -> exists w, field_energy m currents = Throw w) /\
  (m_core_processed m = true -> m_bobbin_processed m = false \/ m_column_width m = None \/ fd_points (m_field m) = [] ->
     exists w, field_energy m currents = Throw w) /\
  (windings m = O -> exists w, leakage_matrix m = Throw w).
Proof.
  intros m currents. unfold field_energy, leakage_matrix. split; [|split; [|split]].
  - intros ->. eexists. reflexivity.
  - intros -> L. cbn [negb]. replace (Nat.eqb _ _) with false by (symmetry; apply Nat.eqb_neq; exact L). eexists. reflexivity.
  - intros -> H. cbn [negb]. destruct (Nat.eqb _ _); cbn [negb]; [|eexists; reflexivity].
    unfold window_energy. destruct (m_bobbin_processed m); cbn [negb]; [|eexists; reflexivity].
    destruct (m_column_width m); [|eexists; reflexivity].
    destruct (fd_points (m_field m)); [eexists; reflexivity|]. destruct H as [H|[H|H]]; discriminate.
  - intros ->. eexists. reflexivity.
Qed.

(** ** C103 *)

(** The windings share a column as far as the call sees. *)
Definition same_column (m : magnetic) (s d : nat) : Prop :=
  all_on_main m \/
  (some_off_main m /\ exists cs, resolve_winding_columns (m_core m) (m_sections m) (m_windings m) = Ok cs /\
     nth s cs 0%nat = nth d cs 0%nat).
Definition other_column (m : magnetic) (s d : nat) : Prop :=
  some_off_main m /\ exists cs, resolve_winding_columns (m_core m) (m_sections m) (m_windings m) = Ok cs /\
     nth s cs 0%nat <> nth d cs 0%nat.

Lemma pair_same : forall m s d, complete m -> same_column m s d -> (s < windings m)%nat -> (d < windings m)%nat ->
  pair_leakage m s d
  = bind (window_energy m (pair_magnitudes m s d) (pair_directions m s d)) (fun energy => Ok (2 / (1 # 2) * energy)).
Proof.
  intros m s d (P & _) H S D. unfold pair_leakage. rewrite P. cbn [negb].
  rewrite (proj2 (Nat.ltb_lt _ _) S), (proj2 (Nat.ltb_lt _ _) D). cbn [andb negb].
  destruct H as [H|(H & cs & R & E)]; unfold all_on_main, some_off_main in H; rewrite H; cbn [bind]; [reflexivity|].
  rewrite R. cbn [bind]. rewrite E, Nat.eqb_refl. reflexivity.
Qed.

Lemma pair_current : forall m s d k, s <> d -> (s < windings m)%nat -> (d < windings m)%nat -> (k < windings m)%nat ->
  at_ (pair_magnitudes m s d) k * at_ (pair_directions m s d) k == two s d 1 (- (turns m s / turns m d)) k.
Proof.
  intros m s d k NE S D K. unfold pair_magnitudes, pair_directions, two.
  rewrite at_map_seq by exact K. destruct (Nat.eqb_spec k d) as [->|ND].
  - replace (Nat.eqb d s) with false by (symmetry; apply Nat.eqb_neq; congruence).
    rewrite set_nth_same by (rewrite set_nth_length, repeat_length; exact D). ring.
  - rewrite set_nth_other by exact ND. destruct (Nat.eqb_spec k s) as [->|NS].
    + rewrite set_nth_same by (rewrite repeat_length; exact S). ring.
    + rewrite set_nth_other by exact NS. rewrite at_repeat. ring.
Qed.

(** Two windings on one column: the leakage inductance between them is that of
    the matrix for ampere-turns that cancel, the other windings open. *)
Theorem C103_same_column : forall m s d l, complete m -> same_column m s d -> s <> d ->
  (s < windings m)%nat -> (d < windings m)%nat -> ~ turns m d == 0 -> leakage_matrix m = Ok l ->
  exists v, pair_leakage m s d = Ok v /\
    v == cell l s s - 2 * (turns m s / turns m d) * cell l s d
         + (turns m s / turns m d) * (turns m s / turns m d) * cell l d d.
Proof.
  intros m s d l C H NE S D T E. destruct (complete_width m C) as (w & W).
  destruct (matrix_coefficient m l w C W E) as (_ & _ & _ & V).
  rewrite (pair_same m s d C H S D).
  destruct (window_energy_value m (pair_magnitudes m s d) (pair_directions m s d) w C W) as (e & EE & Q).
  rewrite EE. cbn [bind]. eexists. split; [reflexivity|]. rewrite Q.
  rewrite (quadratic_ext _ _ (coefficient (m_field m) w) _ (two s d 1 (- (turns m s / turns m d))));
    [|intros; reflexivity | intros; apply pair_current; assumption].
  rewrite quadratic_two by assumption. rewrite !V by assumption.
  rewrite (coefficient_sym (m_field m) w d s). field. exact T.
Qed.

Lemma same_column_sym : forall m s d, same_column m s d -> same_column m d s.
Proof.
  intros m s d [H|(H & cs & R & E)]; [left; exact H | right]. split; [exact H|]. exists cs. auto.
Qed.
Lemma other_column_sym : forall m s d, other_column m s d -> other_column m d s.
Proof. intros m s d (H & cs & R & E). split; [exact H|]. exists cs. split; [exact R | congruence]. Qed.

Theorem C103_nonnegative : forall m s d v, complete m -> outside_column m -> same_column m s d -> s <> d ->
  (s < windings m)%nat -> (d < windings m)%nat -> pair_leakage m s d = Ok v -> 0 <= v.
Proof.
  intros m s d v C O H NE S D E. destruct (complete_width m C) as (w & W).
  rewrite (pair_same m s d C H S D) in E.
  destruct (window_energy_value m (pair_magnitudes m s d) (pair_directions m s d) w C W) as (e & EE & Q).
  rewrite EE in E. cbn [bind] in E. injection E as <-.
  pose proof (coefficient_semidefinite (m_field m) w (windings m) (weights_nonneg m w O W)
    (fun a => at_ (pair_magnitudes m s d) a * at_ (pair_directions m s d) a)).
  setoid_replace (2 / (1 # 2)) with 4 by reflexivity. lra.
Qed.

(** Seen from the other winding it scales with the square of the turns. *)
Theorem C103_referral : forall m s d v v', complete m -> same_column m s d -> s <> d ->
  (s < windings m)%nat -> (d < windings m)%nat -> ~ turns m s == 0 -> ~ turns m d == 0 ->
  pair_leakage m s d = Ok v -> pair_leakage m d s = Ok v' ->
  v * (turns m d * turns m d) == v' * (turns m s * turns m s).
Proof.
  intros m s d v v' C H NE S D TS TD E E'.
  destruct (C102_accepts m C) as (l & EL & _); [lia|].
  destruct (C103_same_column m s d l C H NE S D TD EL) as (x & EX & QX).
  destruct (C103_same_column m d s l C (same_column_sym _ _ _ H) ltac:(congruence) D S TS EL) as (y & EY & QY).
  assert (x = v) by congruence. assert (y = v') by congruence. subst x y. rewrite QX, QY.
  rewrite (C102_symmetric m l C EL d s D S). field. split; assumption.
Qed.

Lemma network_facts : forall m u gaps M, Forall (fun c => 0 < c_height c) (k_columns (m_core m)) ->
  Forall (fun r => 0 <= r) gaps ->
  coil_inductance_matrix (m_core m) (Some u) gaps (m_sections m) (m_windings m) = Ok M ->
  List.length M = windings m /\ symmetric (windings m) (cell M) /\
  (forall v, 0 <= quadratic_form (windings m) (cell M) v) /\
  (forall i, (i < windings m)%nat -> ~ turns m i == 0 -> 0 < cell M i i).
Proof.
  intros m u gaps M HC HG E.
  destruct (NetworkProperties.C34_core_and_coil _ _ _ _ _ _ E HC HG) as (L & S & P & D).
  split; [exact L|]. split; [intros i k I K; exact (proj1 (S i k I K))|]. split.
  - intro v. specialize (P (map v (seq 0 (windings m)))).
    rewrite map_length, seq_length in P. specialize (P eq_refl).
    eapply Qle_trans; [exact P|]. apply Qle_lteq. right. unfold NetworkProperties.quadratic, quadratic_form.
    apply sum_ext. intros i I. rewrite at_map_seq by exact I.
    rewrite (sum_ext (List.length (m_windings m)) _ (fun k => cell M i k * v k)); [reflexivity|].
    intros k K. rewrite at_map_seq by exact K. reflexivity.
  - intros i I T. destruct (nth_error (m_windings m) i) as [g|] eqn:G.
    + apply (D i g G). intro Z. apply T. unfold turns.
      rewrite (nth_indep _ 0 (inject_Z (g_turns g))) by (rewrite map_length; exact I).
      rewrite (map_nth (fun g => inject_Z (g_turns g))). rewrite (nth_error_nth _ _ _ G), Z. reflexivity.
    + apply nth_error_None in G. unfold windings in I. lia.
Qed.

(** Two windings on different columns: what the source shows with the
    destination shorted, the other windings open. *)
Theorem C103_other_column : forall m s d v, complete m -> sound_core m -> other_column m s d ->
  (s < windings m)%nat -> (d < windings m)%nat -> ~ turns m d == 0 -> pair_leakage m s d = Ok v ->
  exists M, coil_inductance_matrix (m_core m) (Some (m_plain_ungapped m)) (m_plain_gaps m) (m_sections m) (m_windings m) = Ok M /\
    0 < cell M d d /\ 0 <= v /\
    forall shorted, cell M d s + cell M d d * shorted == 0 -> v == cell M s s + cell M s d * shorted.
Proof.
  intros m s d v (P & _) (HC & _ & HG) (H & cs & R & NE) S D T E. unfold pair_leakage in E. rewrite P in E. cbn [negb] in E.
  rewrite (proj2 (Nat.ltb_lt _ _) S), (proj2 (Nat.ltb_lt _ _) D) in E. cbn [andb negb] in E.
  unfold some_off_main in H. rewrite H in E. cbn [bind] in E. rewrite R in E. cbn [bind] in E.
  replace (Nat.eqb (nth s cs 0%nat) (nth d cs 0%nat)) with false in E by (symmetry; apply Nat.eqb_neq; exact NE).
  cbn [negb] in E. destruct (coil_inductance_matrix _ _ _ _ _) as [M| | |] eqn:EM; try discriminate.
  cbn [bind] in E. injection E as <-. exists M. split; [reflexivity|].
  destruct (network_facts m _ _ M HC HG EM) as (_ & SY & PS & PD).
  pose proof (PD d D T) as DD. split; [exact DD|].
  destruct (semidefinite_bound _ _ s d SY PS S D) as (_ & CS). pose proof (SY d s D S) as SE. split.
  - assert (Q : cell M s d * cell M s d / cell M d d <= cell M s s) by (apply Qle_shift_div_r; assumption). lra.
  - intros x Z. assert (X : x == - cell M s d / cell M d d).
    { rewrite SE in Z. apply Qmult_inj_l with (z := cell M d d); [lra|]. field_simplify; lra. }
    rewrite X. field. lra.
Qed.

Theorem C103_other_column_referral : forall m s d v v' M, complete m -> sound_core m -> other_column m s d ->
  (s < windings m)%nat -> (d < windings m)%nat -> ~ turns m s == 0 -> ~ turns m d == 0 ->
  pair_leakage m s d = Ok v -> pair_leakage m d s = Ok v' ->
  coil_inductance_matrix (m_core m) (Some (m_plain_ungapped m)) (m_plain_gaps m) (m_sections m) (m_windings m) = Ok M ->
  v * cell M d d == v' * cell M s s.
Proof.
  intros m s d v v' M C SC H S D TS TD E E' EM.
  destruct (C103_other_column m s d v C SC H S D TD E) as (M1 & E1 & P1 & _ & V1).
  destruct (C103_other_column m d s v' C SC (other_column_sym _ _ _ H) D S TS E') as (M2 & E2 & P2 & _ & V2).
  assert (M1 = M) by congruence. assert (M2 = M) by congruence. subst M1 M2.
  destruct SC as (HC & _ & HG). destruct (network_facts m _ _ M HC HG EM) as (_ & SY & _ & _).
  rewrite (V1 (- cell M d s / cell M d d)) by (field; lra).
  rewrite (V2 (- cell M s d / cell M s s)) by (field; lra).
  rewrite (SY d s D S). field. lra.
Qed.

(** The call answers for every pair. *)
Theorem C103_accepts : forall m s d, complete m -> (s < windings m)%nat -> (d < windings m)%nat ->
  all_on_main m -> exists v, pair_leakage m s d = Ok v.
Proof.
  intros m s d C S D H. destruct (complete_width m C) as (w & W).
  rewrite (pair_same m s d C (or_introl H) S D).
  destruct (window_energy_value m (pair_magnitudes m s d) (pair_directions m s d) w C W) as (e & EE & _).
  rewrite EE. eexists. reflexivity.
Qed.

(** By name: nothing on the diagonal, the leakage of the pair elsewhere, and
    every pair of windings is there. *)
Theorem C103_by_name : forall m r i j, distinct_names m -> leakage_by_name m = Ok r ->
  (i < windings m)%nat -> (j < windings m)%nat ->
  exists v, value_of r (name m i) (name m j) = Some v /\ leakage_between m i j = Ok v.
Proof.
  intros m r i j D E I J. unfold leakage_by_name in E.
  replace (Nat.eqb (windings m) 0) with false in E by (symmetry; apply Nat.eqb_neq; lia).
  destruct (outcomes _ _) as [rows| | |] eqn:ER; try discriminate. cbn [bind] in E. injection E as <-.
  destruct (outcomes_seq _ _ rows [] ER) as (LR & VR).
  assert (ROW : forall k, (k < windings m)%nat -> exists values, leakage_all_windings m k = Ok values /\
    List.length values = windings m /\
    (forall l, (l < windings m)%nat -> leakage_between m k l = Ok (at_ values l)) /\
    nth k rows [] = map (fun j => (name m k, name m j, at_ values j)) (seq 0 (windings m))).
  { intros k K. specialize (VR k K). destruct (leakage_all_windings m k) as [values| | |] eqn:EV; try discriminate.
    cbn [bind] in VR. exists values. split; [reflexivity|].
    destruct (outcomes_seq _ _ values 0 EV) as (LV & VV). split; [exact LV|].
    assert (B : forall l, (l < windings m)%nat -> leakage_between m k l = Ok (at_ values l)).
    { intros l L. unfold at_. rewrite <- (VV l L). unfold leakage_between. rewrite (Nat.eqb_sym k l). reflexivity. }
    split; [exact B|].
    injection VR as VR. rewrite <- VR. apply map_ext_in. intros l L. apply in_seq in L.
    rewrite LV. replace (Nat.ltb l (windings m)) with true by (symmetry; apply Nat.ltb_lt; lia).
    destruct (Nat.eqb_spec k l) as [->|]; [|reflexivity].
    specialize (B l K). unfold leakage_between in B. rewrite Nat.eqb_refl in B. injection B as B. rewrite <- B. reflexivity. }
  set (V := fun k l => match leakage_between m k l with Ok v => v | _ => 0 end).
  exists (V i j). split.
  - apply full_value; try assumption. intros k K. destruct (ROW k K) as (values & _ & _ & B & ->).
    apply map_ext_in. intros l L. apply in_seq in L. unfold V. rewrite (B l) by lia. reflexivity.
  - destruct (ROW i I) as (values & _ & _ & B & _). unfold V. rewrite (B j J). reflexivity.
Qed.

Theorem C103_zero_diagonal : forall m r i, distinct_names m -> leakage_by_name m = Ok r -> (i < windings m)%nat ->
  value_of r (name m i) (name m i) = Some 0.
Proof.
  intros m r i D E I. destruct (C103_by_name m r i i D E I I) as (v & V & B).
  unfold leakage_between in B. rewrite Nat.eqb_refl in B. injection B as <-. exact V.
Qed.

(** ** C104 *)

(** The part of an inductance that is due to the core. *)
Definition core_part (m : magnetic) (network : option table) (i j : nat) : Q :=
  match network with
  | Some l => cell l i j
  | None => m_magnetizing m * (turns m i / turns m 0) * (turns m j / turns m 0)
  end.
Definition leakage_part (network : option table) (columns : list nat) (leakage : table) (i j : nat) : Q :=
  if match network with Some _ => negb (Nat.eqb (nth i columns 0%nat) (nth j columns 0%nat)) | None => false end then 0
  else if Nat.ltb i (List.length leakage) && Nat.ltb j (List.length (nth i leakage [])) then cell leakage i j
  else 0.

Lemma by_name_inv : forall m r, inductance_by_name m = Ok r ->
  windings m <> O /\ m_core_processed m = true /\
  exists leakage network columns,
    (if Nat.ltb 1 (windings m) then leakage_matrix m else Ok []) = Ok leakage /\
    coupling_matrix m = Ok network /\
    (match network with
     | Some _ => resolve_winding_columns (m_core m) (m_sections m) (m_windings m)
     | None => Ok []
     end) = Ok columns /\
    r = upper_entries m (fun i j => core_part m network i j + leakage_part network columns leakage i j).
Proof.
  intros m r E. unfold inductance_by_name in E.
  destruct (Nat.eqb_spec (windings m) 0) as [|N]; [discriminate|]. split; [exact N|].
  destruct (m_core_processed m); cbn [negb] in E; [|discriminate]. split; [reflexivity|].
  destruct (if Nat.ltb 1 (windings m) then leakage_matrix m else Ok []) as [leakage| | |] eqn:E1; try discriminate. cbn [bind] in E.
  destruct (coupling_matrix m) as [network| | |] eqn:E2; try discriminate. cbn [bind] in E.
  destruct (match network with Some _ => _ | None => _ end) as [columns| | |] eqn:E3; try discriminate. cbn [bind] in E.
  exists leakage, network, columns. split; [reflexivity|]. split; [reflexivity|]. split; [exact E3|].
  injection E as <-. reflexivity.
Qed.

Lemma coupling_main : forall m, all_on_main m -> coupling_matrix m = Ok None.
Proof. intros m H. unfold coupling_matrix. unfold all_on_main in H. rewrite H. reflexivity. Qed.

Lemma coupling_off : forall m network, some_off_main m -> coupling_matrix m = Ok network ->
  exists M, network = Some M /\
    coil_inductance_matrix (m_core m) (Some (m_ungapped m)) (m_gap_reluctances m) (m_sections m) (m_windings m) = Ok M.
Proof.
  intros m network H E. unfold coupling_matrix in E. unfold some_off_main in H. rewrite H in E. cbn [bind] in E.
  destruct (coil_inductance_matrix _ _ _ _ _) as [M| | |]; try discriminate. cbn [bind] in E. injection E as <-.
  exists M. auto.
Qed.

Lemma coupling_kind : forall m network, coupling_matrix m = Ok network ->
  (all_on_main m /\ network = None) \/ (some_off_main m /\ exists M, network = Some M).
Proof.
  intros m network E. unfold coupling_matrix in E. unfold all_on_main, some_off_main.
  destruct (has_non_main_placement _ _ _) as [[]| | |]; try discriminate; cbn [bind] in E.
  - right. split; [reflexivity|]. destruct (coil_inductance_matrix _ _ _ _ _) as [M| | |]; try discriminate.
    cbn [bind] in E. injection E as <-. exists M. reflexivity.
  - left. injection E as <-. auto.
Qed.

Lemma leakage_cell : forall m l i j, complete m -> leakage_matrix m = Ok l -> (i < windings m)%nat -> (j < windings m)%nat ->
  Nat.ltb i (List.length l) && Nat.ltb j (List.length (nth i l [])) = true.
Proof.
  intros m l i j C E I J. destruct (complete_width m C) as (w & W).
  destruct (matrix_coefficient m l w C W E) as (_ & L & R & _). rewrite Forall_forall in R.
  rewrite L, (R (nth i l [])) by (apply nth_In; lia).
  rewrite (proj2 (Nat.ltb_lt _ _) I), (proj2 (Nat.ltb_lt _ _) J). reflexivity.
Qed.

(** All the windings around the main column, more than one: each entry is the
    magnetizing inductance referred to both windings plus their entry of the
    leakage matrix. *)
Theorem C104_main_column : forall m r l i j, complete m -> distinct_names m -> all_on_main m ->
  inductance_by_name m = Ok r -> leakage_matrix m = Ok l -> (1 < windings m)%nat ->
  (i < windings m)%nat -> (j < windings m)%nat ->
  exists v, value_of r (name m i) (name m j) = Some v /\
    v == m_magnetizing m * (turns m i / turns m 0) * (turns m j / turns m 0) + cell l i j.
Proof.
  intros m r l i j C D H E EL N I J.
  destruct (by_name_inv m r E) as (_ & _ & leakage & network & columns & E1 & E2 & E3 & ->).
  rewrite (proj2 (Nat.ltb_lt _ _) N) in E1. assert (leakage = l) by congruence. subst leakage.
  rewrite (coupling_main m H) in E2. injection E2 as <-.
  eexists. split; [apply upper_value; assumption|]. cbn [core_part]. unfold leakage_part.
  rewrite (leakage_cell m l) by (try assumption; lia).
  destruct (Nat.le_ge_cases i j).
  - rewrite Nat.min_l, Nat.max_r by lia. reflexivity.
  - rewrite Nat.min_r, Nat.max_l by lia. rewrite (C102_symmetric m l C EL j i J I). ring.
Qed.

(** Windings on several columns: the core part is that of the network of
    reluctances, and leakage couples only windings that share a column. *)
Theorem C104_several_columns : forall m r l cs i j, complete m -> distinct_names m -> sound_core m -> some_off_main m ->
  inductance_by_name m = Ok r -> leakage_matrix m = Ok l -> (1 < windings m)%nat ->
  resolve_winding_columns (m_core m) (m_sections m) (m_windings m) = Ok cs ->
  (i < windings m)%nat -> (j < windings m)%nat ->
  exists M v,
    coil_inductance_matrix (m_core m) (Some (m_ungapped m)) (m_gap_reluctances m) (m_sections m) (m_windings m) = Ok M /\
    value_of r (name m i) (name m j) = Some v /\
    (nth i cs 0%nat = nth j cs 0%nat -> v == cell M i j + cell l i j) /\
    (nth i cs 0%nat <> nth j cs 0%nat -> v == cell M i j).
Proof.
  intros m r l cs i j C D (HC & HG & _) H E EL N R I J.
  destruct (by_name_inv m r E) as (_ & _ & leakage & network & columns & E1 & E2 & E3 & ->).
  rewrite (proj2 (Nat.ltb_lt _ _) N) in E1. assert (leakage = l) by congruence. subst leakage.
  destruct (coupling_off m network H E2) as (M & -> & EM). cbn iota in E3.
  assert (columns = cs) by congruence. subst columns.
  destruct (network_facts m _ _ M HC HG EM) as (_ & SY & _ & _).
  exists M. eexists. split; [exact EM|]. split; [apply upper_value; assumption|].
  cbn [core_part]. unfold leakage_part. rewrite (leakage_cell m l) by (try assumption; lia).
  destruct (Nat.le_ge_cases i j).
  - rewrite Nat.min_l, Nat.max_r by lia. split; intro Q.
    + rewrite Q, Nat.eqb_refl. reflexivity.
    + rewrite (proj2 (Nat.eqb_neq _ _) Q). cbn [negb]. ring.
  - rewrite Nat.min_r, Nat.max_l by lia. split; intro Q.
    + rewrite Q, Nat.eqb_refl. cbn [negb]. rewrite (SY j i J I), (C102_symmetric m l C EL j i J I). reflexivity.
    + rewrite (proj2 (Nat.eqb_neq (nth j cs 0%nat) (nth i cs 0%nat))) by congruence. cbn [negb]. rewrite (SY j i J I). ring.
Qed.

(** A single winding: the magnetizing inductance, no leakage. *)
Theorem C104_single : forall m r, distinct_names m -> all_on_main m -> windings m = 1%nat -> ~ turns m 0 == 0 ->
  inductance_by_name m = Ok r -> exists v, value_of r (name m 0) (name m 0) = Some v /\ v == m_magnetizing m.
Proof.
  intros m r D H N T E.
  destruct (by_name_inv m r E) as (_ & _ & leakage & network & columns & E1 & E2 & E3 & ->).
  rewrite N in E1. cbn in E1. injection E1 as <-. rewrite (coupling_main m H) in E2. injection E2 as <-.
  eexists. split; [apply upper_value; lia || assumption|]. cbn [Nat.min Nat.max core_part leakage_part].
  unfold leakage_part. cbn. field. exact T.
Qed.

(** Whatever the names, the two entries of a pair are one number. *)
Theorem C104_symmetric : forall m r a b, inductance_by_name m = Ok r -> value_of r a b = value_of r b a.
Proof.
  intros m r a b E. destruct (by_name_inv m r E) as (_ & _ & leakage & network & columns & _ & _ & _ & ->).
  apply upper_symmetric.
Qed.

(** The form of the matrix that is reported, in either case. *)
Lemma reported_form : forall m r v, complete m -> outside_column m -> sound_core m -> distinct_names m ->
  0 <= m_magnetizing m -> inductance_by_name m = Ok r ->
  exists core leak, symmetric (windings m) core /\ symmetric (windings m) leak /\
    semidefinite (windings m) core /\ semidefinite (windings m) leak /\
    (forall network, coupling_matrix m = Ok network -> forall i j, core i j = core_part m network i j) /\
    (forall i j, (i < windings m)%nat -> (j < windings m)%nat -> entry_of m r i j == core i j + leak i j) /\
    quadratic_form (windings m) (entry_of m r) v == quadratic_form (windings m) core v + quadratic_form (windings m) leak v.
Proof.
  intros m r v C O SC D LP E.
  destruct (by_name_inv m r E) as (N & P & leakage & network & columns & E1 & E2 & E3 & ->).
  set (core := core_part m network). set (leak := leakage_part network columns leakage).
  assert (LK : exists lam, symmetric (windings m) lam /\ semidefinite (windings m) lam /\
     forall i j, (i < windings m)%nat -> (j < windings m)%nat ->
       (if Nat.ltb i (List.length leakage) && Nat.ltb j (List.length (nth i leakage [])) then cell leakage i j else 0) == lam i j).
  { destruct (Nat.ltb_spec 1 (windings m)) as [LT|GE].
    - exists (cell leakage). split; [apply C102_symmetric; assumption|].
      split; [intro x; apply C102_passive; assumption|]. intros i j I J.
      rewrite (leakage_cell m leakage) by assumption. reflexivity.
    - injection E1 as <-. exists (fun _ _ => 0). split; [intros i k _ _; reflexivity|]. split.
      + intro x. unfold quadratic_form. rewrite sum_zero; [lra|]. intros i I. rewrite sum_zero; [ring|]. intros; ring.
      + intros i j _ _. reflexivity. }
  destruct LK as (lam & LS & LPS & LV).
  assert (K : symmetric (windings m) core /\ semidefinite (windings m) core /\ symmetric (windings m) leak /\ semidefinite (windings m) leak).
  { destruct (coupling_kind m network E2) as [(H & ->)|(H & M & ->)].
    - split; [intros i k _ _; cbn; ring|]. split.
      + intro x. rewrite (quadratic_ext _ _ (fun i k => m_magnetizing m * ((turns m i / turns m 0) * (turns m k / turns m 0))) x x);
          [|intros; cbn; ring | intros; reflexivity].
        rewrite quadratic_scale, quadratic_rank1. apply Qmult_le_0_compat; [exact LP | apply square_nonneg].
      + assert (EQ : forall i j, (i < windings m)%nat -> (j < windings m)%nat -> leak i j == lam i j)
          by (intros i j I J; apply LV; assumption).
        split.
        * intros i k I K. rewrite !EQ by assumption. apply LS; assumption.
        * intro x. rewrite (quadratic_ext _ leak lam x x) by (assumption || (intros; reflexivity)). apply LPS.
    - destruct (coupling_off m _ H E2) as (M' & EQ & EM). injection EQ as <-. cbn iota in E3.
      destruct SC as (HC & HG & _). destruct (network_facts m _ _ M HC HG EM) as (_ & SY & PS & _).
      split; [exact SY|]. split; [exact PS|].
      destruct (NetworkProperties.C59_one_column_each _ _ _ _ E3) as (LC & RC).
      assert (EQ : forall i j, (i < windings m)%nat -> (j < windings m)%nat ->
        leak i j == (if Nat.eqb (nth i columns 0%nat) (nth j columns 0%nat) then lam i j else 0)).
      { intros i j I J. unfold leak, leakage_part. destruct (Nat.eqb (nth i columns 0%nat) (nth j columns 0%nat)); cbn [negb]; [|reflexivity].
        apply LV; assumption. }
      split.
      + intros i k I K. rewrite !EQ by assumption. rewrite (Nat.eqb_sym (nth k columns 0%nat)).
        destruct (Nat.eqb (nth i columns 0%nat) (nth k columns 0%nat)); [apply LS; assumption | reflexivity].
      + intro x. rewrite (quadratic_ext _ leak (fun i j => if Nat.eqb (nth i columns 0%nat) (nth j columns 0%nat) then lam i j else 0) x x)
          by (assumption || (intros; reflexivity)).
        apply (semidefinite_masked (windings m) lam (fun i => nth i columns 0%nat) (List.length (k_columns (m_core m)))); [|exact LPS].
        intros i I. rewrite Forall_forall in RC. apply RC. apply nth_In. unfold windings in I. lia. }
  destruct K as (CS & CP & KS & KP).
  exists core, leak. split; [exact CS|]. split; [exact KS|]. split; [exact CP|]. split; [exact KP|].
  split; [intros other EN i j; assert (other = network) by congruence; subst other; reflexivity|].
  assert (EV : forall i j, (i < windings m)%nat -> (j < windings m)%nat ->
    entry_of m (upper_entries m (fun i j => core_part m network i j + leakage_part network columns leakage i j)) i j == core i j + leak i j).
  { intros i j I J. unfold entry_of. rewrite upper_value by assumption.
    change (core (Nat.min i j) (Nat.max i j) + leak (Nat.min i j) (Nat.max i j) == core i j + leak i j).
    destruct (Nat.le_ge_cases i j).
    - rewrite Nat.min_l, Nat.max_r by lia. reflexivity.
    - rewrite Nat.min_r, Nat.max_l by lia. rewrite (CS j i J I), (KS j i J I). reflexivity. }
  split; [exact EV|].
  rewrite <- quadratic_plus. apply quadratic_ext; [exact EV | intros; reflexivity].
Qed.

(** Whatever the currents in the windings, the energy stored is not negative. *)
Theorem C104_passive : forall m r v, complete m -> outside_column m -> sound_core m -> distinct_names m ->
  0 <= m_magnetizing m -> inductance_by_name m = Ok r ->
  0 <= quadratic_form (windings m) (entry_of m r) v.
Proof.
  intros m r v C O SC D LP E.
  destruct (reported_form m r v C O SC D LP E) as (core & leak & _ & _ & CP & KP & _ & _ & Q).
  rewrite Q. pose proof (CP v). pose proof (KP v). lra.
Qed.

Theorem C104_coupling : forall m r i j, complete m -> outside_column m -> sound_core m -> distinct_names m ->
  0 <= m_magnetizing m -> inductance_by_name m = Ok r -> (i < windings m)%nat -> (j < windings m)%nat ->
  0 <= entry_of m r i i /\
  entry_of m r i j * entry_of m r i j <= entry_of m r i i * entry_of m r j j.
Proof.
  intros m r i j C O SC D LP E I J. apply (semidefinite_bound (windings m)); try assumption.
  - intros a b _ _. unfold entry_of. rewrite (C104_symmetric m r (name m a) (name m b) E). reflexivity.
  - intro v. apply C104_passive; assumption.
Qed.

(** The diagonal is what the call for one winding gives. *)
Theorem C104_diagonal : forall m r i, complete m -> distinct_names m -> ~ turns m 0 == 0 ->
  inductance_by_name m = Ok r -> (i < windings m)%nat ->
  exists v, self_inductance m i = Ok v /\ v == entry_of m r i i.
Proof.
  intros m r i C D T E I.
  destruct (by_name_inv m r E) as (N & P & leakage & network & columns & E1 & E2 & E3 & ->).
  unfold self_inductance. rewrite E2. cbn [bind].
  assert (V : entry_of m (upper_entries m (fun i j => core_part m network i j + leakage_part network columns leakage i j)) i i
    = core_part m network i i + leakage_part network columns leakage i i).
  { unfold entry_of. rewrite upper_value by assumption. rewrite Nat.min_id, Nat.max_id. reflexivity. }
  rewrite V. clear V.
  assert (CP : match network with Some l => cell l i i | None => referred_magnetizing m i end == core_part m network i i).
  { destruct network; [reflexivity|]. unfold referred_magnetizing, core_part.
    destruct (Nat.eqb_spec i 0) as [->|]; [field; exact T | reflexivity]. }
  assert (LP : leakage_part network columns leakage i i
    = if Nat.ltb i (List.length leakage) && Nat.ltb i (List.length (nth i leakage [])) then cell leakage i i else 0).
  { unfold leakage_part. destruct network; [rewrite Nat.eqb_refl; reflexivity | reflexivity]. }
  rewrite LP. destruct (Nat.ltb_spec 1 (windings m)) as [LT|GE].
  - rewrite E1. cbn [bind]. eexists. split; [reflexivity|]. rewrite CP, (leakage_cell m leakage) by assumption. reflexivity.
  - injection E1 as <-. cbn [bind]. eexists. split; [reflexivity|]. rewrite CP. reflexivity.
Qed.

(** The call answers. *)
Theorem C104_accepts : forall m, complete m -> windings m <> O -> all_on_main m ->
  exists r, inductance_by_name m = Ok r.
Proof.
  intros m C N H. pose proof C as (P & _). unfold inductance_by_name.
  rewrite (proj2 (Nat.eqb_neq _ _) N), P. cbn [negb]. rewrite (coupling_main m H).
  destruct (C102_accepts m C N) as (l & EL & _). rewrite EL.
  destruct (Nat.ltb 1 (windings m)); cbn [bind]; eexists; reflexivity.
Qed.

(** The matrix the extended cantilever model is built from is the same one,
    with all the windings on the main column and more than one of them. *)
Theorem C104_cantilever : forall m r, complete m -> distinct_names m -> all_on_main m -> (1 < windings m)%nat ->
  inductance_by_name m = Ok r ->
  exists t, assembled_matrix m = Ok t /\ List.length t = windings m /\
    forall i j, (i < windings m)%nat -> (j < windings m)%nat -> cell t i j == entry_of m r i j.
Proof.
  intros m r C D H N E. destruct (C102_accepts m C ltac:(lia)) as (l & EL & LL & LR).
  assert (LT : List.length (turns_ratios m) = windings m) by (unfold turns_ratios; rewrite map_length, seq_length; reflexivity).
  destruct (assemble_full l (m_magnetizing m) (turns_ratios m)) as (t & ET & TL & TV).
  { split; [lia | rewrite LT; exact LR]. }
  exists t. split; [|split; [lia|]].
  - unfold assembled_matrix. rewrite (proj2 (Nat.eqb_neq (windings m) 0)) by lia. rewrite EL. cbn [bind].
    rewrite LL, Nat.eqb_refl. cbn [negb]. unfold magnetizing_matrix. rewrite (coupling_main m H). cbn [bind]. exact ET.
  - intros i j I J. rewrite TV by lia. unfold full.
    destruct (C104_main_column m r l i j C D H E EL N I J) as (v & V & Q). unfold entry_of. rewrite V, Q.
    unfold turns_ratios. rewrite !at_map_seq by assumption. reflexivity.
Qed.

(** The extended cantilever model of the magnetic: its couplings are those of the
    inverse of that matrix, and a magnetizing inductance that is not positive is
    refused. *)
Theorem C104_cantilever_model : forall m r c, complete m -> distinct_names m -> all_on_main m -> (1 < windings m)%nat ->
  inductance_by_name m = Ok r -> cantilever_of m = Ok c ->
  0 < m_magnetizing m /\ ec_magnetizing c = m_magnetizing m /\ List.length (ec_ratios c) = windings m /\
  (forall i, (i < windings m)%nat -> at_ (ec_ratios c) i == turns m i / turns m 0) /\
  exists B, inverse (windings m) (entry_of m r) B /\
    forall j k, (j < windings m)%nat -> (k < windings m)%nat -> j <> k ->
      ~ cell (ec_leakage c) j k == 0 /\
      B j k == - (1 / (turns m j / turns m 0 * (turns m k / turns m 0) * cell (ec_leakage c) j k)).
Proof.
  intros m r c C D H N E EC. destruct (C102_accepts m C ltac:(lia)) as (l & EL & LL & LR).
  assert (LT : List.length (turns_ratios m) = windings m) by (unfold turns_ratios; rewrite map_length, seq_length; reflexivity).
  assert (W : well_formed l (turns_ratios m)) by (split; [lia | rewrite LT; exact LR]).
  assert (BL : build_from_leakage_matrix l (m_magnetizing m) (turns_ratios m) = Ok c).
  { unfold cantilever_of in EC. rewrite EL in EC. unfold build_from_leakage_matrix. rewrite LT.
    destruct (Nat.eqb (windings m) 0); [discriminate|]. cbn [bind] in EC.
    destruct (negb (Nat.eqb (List.length l) (windings m))); [discriminate|].
    destruct (Qle_bool (m_magnetizing m) 0); [discriminate|].
    unfold magnetizing_matrix in EC. rewrite (coupling_main m H) in EC. cbn [bind] in EC. exact EC. }
  destruct (C101_built _ _ _ _ W BL) as (M & R & P & B & V & K). rewrite LT in V, K.
  assert (RT : forall i, (i < windings m)%nat -> at_ (turns_ratios m) i = turns m i / turns m 0).
  { intros i I. unfold turns_ratios. rewrite at_map_seq by exact I. reflexivity. }
  split; [exact P|]. split; [exact M|]. rewrite R. split; [exact LT|].
  split; [intros i I; rewrite RT by exact I; reflexivity|].
  exists B. split.
  - intros i k I KK. destruct (V i k I KK) as [V1 V2]. unfold times in *.
    assert (F : forall a b, (a < windings m)%nat -> (b < windings m)%nat -> entry_of m r a b == full l (m_magnetizing m) (turns_ratios m) a b).
    { intros a b A Bb. destruct (C104_main_column m r l a b C D H E EL N A Bb) as (v & VV & Q).
      unfold entry_of. rewrite VV, Q. unfold full. rewrite !RT by assumption. reflexivity. }
    split; [rewrite <- V1|rewrite <- V2]; apply sum_ext; intros j J; rewrite F by assumption; reflexivity.
  - intros j k J KK NE. destruct (K j k J KK NE) as (_ & Z & Q). split; [exact Z|].
    rewrite Q, !RT by assumption. reflexivity.
Qed.
Theorem C104_cantilever_refused : forall m c, m_magnetizing m <= 0 -> cantilever_of m <> Ok c.
Proof.
  intros m c L E. unfold cantilever_of in E. destruct (Nat.eqb (windings m) 0); [discriminate|].
  destruct (leakage_matrix m) as [l| | |]; try discriminate. cbn [bind] in E.
  destruct (negb _); [discriminate|]. rewrite (proj2 (Qle_bool_iff _ _) L) in E. discriminate.
Qed.

(** With the destination shorted and the others open, what the source shows
    against the leakage inductance of the pair: it is lower by a term that falls
    with the inductance of the destination. *)
Theorem C104_short_circuit : forall m r l s d v, complete m -> distinct_names m ->
  all_on_main m -> s <> d -> (s < windings m)%nat -> (d < windings m)%nat ->
  ~ turns m 0 == 0 -> ~ turns m d == 0 ->
  inductance_by_name m = Ok r -> leakage_matrix m = Ok l -> pair_leakage m s d = Ok v -> 0 < entry_of m r d d ->
  let shown := entry_of m r s s - entry_of m r s d * entry_of m r s d / entry_of m r d d in
  let excess := cell l s d - turns m s / turns m d * cell l d d in
  v - shown == excess * excess / entry_of m r d d /\ shown <= v.
Proof.
  intros m r l s d v C D H NE S DD T0 TD E EL EP PD.
  destruct (C103_same_column m s d l C (or_introl H) NE S DD TD EL) as (x & EX & QX).
  assert (x = v) by congruence. subst x.
  assert (V : forall i j, (i < windings m)%nat -> (j < windings m)%nat ->
    entry_of m r i j == m_magnetizing m * (turns m i / turns m 0) * (turns m j / turns m 0) + cell l i j).
  { intros i j I J. destruct (C104_main_column m r l i j C D H E EL ltac:(lia) I J) as (y & Y & Q). unfold entry_of. rewrite Y. exact Q. }
  set (k := turns m s / turns m d) in *.
  assert (ID : v == entry_of m r s s - 2 * k * entry_of m r s d + k * k * entry_of m r d d).
  { rewrite QX, !V by assumption. unfold k. field. split; assumption. }
  assert (IX : cell l s d - k * cell l d d == entry_of m r s d - k * entry_of m r d d).
  { rewrite !V by assumption. unfold k. field. split; assumption. }
  cbv zeta. rewrite IX, ID. clear QX IX ID V.
  set (a := entry_of m r s s). set (b := entry_of m r s d). set (c := entry_of m r d d) in *. clearbody a b c k.
  assert (G : a - 2 * k * b + k * k * c - (a - b * b / c) == (b - k * c) * (b - k * c) / c) by (field; lra).
  split; [exact G|].
  assert (0 <= (b - k * c) * (b - k * c) / c).
  { apply Qle_shift_div_l; [exact PD|]. rewrite Qmult_0_l. apply square_nonneg. }
  lra.
Qed.

(** ** C105 *)

(** A square root of the precision asked of one: at most one part in ten
    million away. *)
Definition accurate (root : Q -> Q) : Prop :=
  (forall x y, x == y -> root x == root y) /\
  forall x, 0 <= x -> 0 <= root x /\
    (1 - (1 # 10000000)) * (1 - (1 # 10000000)) * x <= root x * root x /\
    root x * root x <= (1 + (1 # 10000000)) * (1 + (1 # 10000000)) * x.

(** The mutual inductance on one column: the geometric mean of the two referred
    magnetizing inductances. *)
Theorem C105_mutual : forall root m s d, accurate root -> all_on_main m -> s <> d ->
  0 <= m_magnetizing m -> ~ turns m 0 == 0 ->
  let exact := m_magnetizing m * (turns m s / turns m 0) * (turns m d / turns m 0) in
  exists v, mutual_inductance root m s d = Ok v /\ 0 <= v /\
    (1 - (1 # 10000000)) * (1 - (1 # 10000000)) * (exact * exact) <= v * v /\
    v * v <= (1 + (1 # 10000000)) * (1 + (1 # 10000000)) * (exact * exact).
Proof.
  intros root m s d (PR & A) H NE LP T exact. unfold mutual_inductance.
  rewrite (proj2 (Nat.eqb_neq _ _) NE), (coupling_main m H). cbn [bind].
  eexists. split; [reflexivity|].
  assert (RM : forall i, referred_magnetizing m i == m_magnetizing m * (turns m i / turns m 0) * (turns m i / turns m 0)).
  { intro i. unfold referred_magnetizing. destruct (Nat.eqb_spec i 0) as [->|]; [field; exact T | reflexivity]. }
  assert (X : referred_magnetizing m s * referred_magnetizing m d == exact * exact) by (rewrite !RM; unfold exact; ring).
  rewrite (PR _ _ X). apply A. apply square_nonneg.
Qed.

(** With windings on several columns it is the entry of the network, of either
    sign, and so of the inductance matrix for windings on different columns. *)
Theorem C105_mutual_columns : forall root m r cs s d, complete m -> distinct_names m -> sound_core m -> some_off_main m ->
  s <> d -> (s < windings m)%nat -> (d < windings m)%nat ->
  inductance_by_name m = Ok r -> resolve_winding_columns (m_core m) (m_sections m) (m_windings m) = Ok cs ->
  nth s cs 0%nat <> nth d cs 0%nat ->
  exists v, mutual_inductance root m s d = Ok v /\ v == entry_of m r s d.
Proof.
  intros root m r cs s d C D SC H NE S DD E R NC.
  destruct (C102_accepts m C) as (l & EL & _); [lia|].
  destruct (C104_several_columns m r l cs s d C D SC H E EL ltac:(lia) R S DD) as (M & v & EM & V & _ & Q).
  unfold mutual_inductance. rewrite (proj2 (Nat.eqb_neq _ _) NE). unfold coupling_matrix.
  unfold some_off_main in H. rewrite H. cbn [bind]. rewrite EM. cbn [bind].
  eexists. split; [reflexivity|]. unfold entry_of. rewrite V, (Q NC). reflexivity.
Qed.

Theorem C105_itself : forall root m i, coupling_coefficient root m i i = Ok 1 /\
  exists w, mutual_inductance root m i i = Throw w.
Proof.
  intros root m i. unfold coupling_coefficient, mutual_inductance. rewrite Nat.eqb_refl.
  split; [reflexivity | eexists; reflexivity].
Qed.

(** The two self inductances and the mutual inductance behind a coefficient. *)
Lemma coefficient_parts : forall root m r s d, accurate root -> complete m -> outside_column m -> sound_core m ->
  distinct_names m -> 0 <= m_magnetizing m -> ~ turns m 0 == 0 -> s <> d ->
  (s < windings m)%nat -> (d < windings m)%nat -> inductance_by_name m = Ok r ->
  exists l11 l22 mutual, self_inductance m s = Ok l11 /\ self_inductance m d = Ok l22 /\
    mutual_inductance root m s d = Ok mutual /\ l11 == entry_of m r s s /\ l22 == entry_of m r d d /\
    0 <= l11 /\ 0 <= l22 /\
    mutual * mutual <= (1 + (1 # 10000000)) * (1 + (1 # 10000000)) * (l11 * l22).
Proof.
  intros root m r s d AR C O SC D LP T NE S DD E.
  destruct (C104_diagonal m r s C D T E S) as (l11 & E1 & Q1). destruct (C104_diagonal m r d C D T E DD) as (l22 & E2 & Q2).
  destruct (reported_form m r (fun _ => 0) C O SC D LP E) as (core & leak & CS & KS & CP & KP & CV & EV & _).
  assert (P : forall i, (i < windings m)%nat -> 0 <= core i i /\ 0 <= leak i i).
  { intros i I. split; [apply (semidefinite_bound (windings m) core i i) | apply (semidefinite_bound (windings m) leak i i)]; assumption. }
  destruct (P s S) as (C1 & K1). destruct (P d DD) as (C2 & K2).
  destruct (semidefinite_bound (windings m) core s d CS CP S DD) as (_ & BD).
  assert (N1 : core s s <= l11) by (rewrite Q1, EV by assumption; lra).
  assert (N2 : core d d <= l22) by (rewrite Q2, EV by assumption; lra).
  assert (BL : core s s * core d d <= l11 * l22) by nra.
  assert (BP : 0 <= core s s * core d d) by (apply Qmult_le_0_compat; assumption).
  destruct (by_name_inv m r E) as (_ & _ & leakage & network & columns & _ & EC & _ & _).
  assert (MU : exists mutual, mutual_inductance root m s d = Ok mutual /\
    mutual * mutual <= (1 + (1 # 10000000)) * (1 + (1 # 10000000)) * (core s s * core d d)).
  { destruct (coupling_kind m network EC) as [(H & ->)|(H & M & ->)].
    - destruct (C105_mutual root m s d AR H NE LP T) as (v & EM & _ & _ & U). exists v. split; [exact EM|].
      rewrite !(CV None EC). cbn [core_part].
      setoid_replace (m_magnetizing m * (turns m s / turns m 0) * (turns m s / turns m 0) *
        (m_magnetizing m * (turns m d / turns m 0) * (turns m d / turns m 0))) with
        (m_magnetizing m * (turns m s / turns m 0) * (turns m d / turns m 0) *
        (m_magnetizing m * (turns m s / turns m 0) * (turns m d / turns m 0))) by ring. exact U.
    - unfold mutual_inductance. rewrite (proj2 (Nat.eqb_neq _ _) NE), EC. cbn [bind]. eexists. split; [reflexivity|].
      pose proof (CV (Some M) EC s d) as ES. cbn [core_part] in ES. rewrite <- ES. lra. }
  destruct MU as (mutual & EM & UM). exists l11, l22, mutual.
  repeat (split; [assumption || lra|]). lra.
Qed.

Lemma squares_compare : forall a b, 0 <= b -> a * a <= b * b -> Qabs a <= b.
Proof.
  intros a b B H. apply Qabs_Qle_condition.
  split; (destruct (Qlt_le_dec b 0); [lra|]).
  - destruct (Qlt_le_dec a (- b)) as [L|]; [|assumption]. exfalso. nra.
  - destruct (Qlt_le_dec b a) as [L|]; [|assumption]. exfalso. nra.
Qed.

(** The call answers for any two windings and never reports more coupling than
    there can be: the check inside it is not reached. *)
Theorem C105_bounded : forall root m r s d, accurate root -> complete m -> outside_column m -> sound_core m ->
  distinct_names m -> 0 <= m_magnetizing m -> ~ turns m 0 == 0 -> s <> d ->
  (s < windings m)%nat -> (d < windings m)%nat -> inductance_by_name m = Ok r ->
  exists k, coupling_coefficient root m s d = Ok k /\ Qabs k <= 1 + (1 # 1000000).
Proof.
  intros root m r s d AR C O SC D LP T NE S DD E.
  destruct (coefficient_parts root m r s d AR C O SC D LP T NE S DD E)
    as (l11 & l22 & mutual & E1 & E2 & EM & _ & _ & P1 & P2 & U).
  unfold coupling_coefficient. rewrite (proj2 (Nat.eqb_neq _ _) NE), E1. cbn [bind]. rewrite E2. cbn [bind].
  rewrite EM. cbn [bind].
  assert (P : 0 <= l11 * l22) by (apply Qmult_le_0_compat; assumption).
  destruct AR as (_ & AR). destruct (AR _ P) as (RP & RL & _).
  set (den := root (l11 * l22)) in *. destruct (Qlt_bool den (1 # 1000000000000000)) eqn:EB.
  - exists 0. split; [reflexivity|]. cbn. lra.
  - apply Qlt_bool_false in EB. assert (DP : 0 < den) by lra.
    assert (K : Qabs (mutual / den) <= 1 + (1 # 1000000)).
    { unfold Qdiv. rewrite Qabs_Qmult, (Qabs_pos (/ den)) by (apply Qlt_le_weak, Qinv_lt_0_compat; exact DP).
      change (Qabs mutual / den <= 1 + (1 # 1000000)). apply Qle_shift_div_r; [exact DP|].
      apply squares_compare; [apply Qmult_le_0_compat; lra|].
      set (y := l11 * l22) in *. set (z := den * den) in *.
      setoid_replace ((1 + (1 # 1000000)) * den * ((1 + (1 # 1000000)) * den)) with ((1 + (1 # 1000000)) * (1 + (1 # 1000000)) * z)
        by (unfold z; ring).
      clearbody y z. lra. }
    destruct (Qlt_bool (1 + (1 # 1000000)) (Qabs (mutual / den))) eqn:EK.
    + apply Qlt_bool_iff in EK. lra.
    + eexists. split; [reflexivity | exact K].
Qed.

(** Its value with all the windings on the main column. *)
Theorem C105_value : forall root m r s d k, accurate root -> complete m -> outside_column m -> sound_core m ->
  distinct_names m -> 0 <= m_magnetizing m -> ~ turns m 0 == 0 -> s <> d -> all_on_main m ->
  (s < windings m)%nat -> (d < windings m)%nat -> inductance_by_name m = Ok r ->
  coupling_coefficient root m s d = Ok k -> 1 # 1000000000000000 <= root (entry_of m r s s * entry_of m r d d) ->
  let exact := m_magnetizing m * (turns m s / turns m 0) * (turns m d / turns m 0) in
  let product := entry_of m r s s * entry_of m r d d in
  0 <= k /\
  (1 - (1 # 10000000)) * (1 - (1 # 10000000)) * (exact * exact)
    <= (1 + (1 # 10000000)) * (1 + (1 # 10000000)) * (k * k * product) /\
  (1 - (1 # 10000000)) * (1 - (1 # 10000000)) * (k * k * product)
    <= (1 + (1 # 10000000)) * (1 + (1 # 10000000)) * (exact * exact).
Proof.
  intros root m r s d k AR C O SC D LP T NE H S DD E EK B exact product.
  destruct (coefficient_parts root m r s d AR C O SC D LP T NE S DD E)
    as (l11 & l22 & mutual & E1 & E2 & EM & Q1 & Q2 & P1 & P2 & _).
  destruct (C105_mutual root m s d AR H NE LP T) as (v & EV & VP & VL & VU). assert (v = mutual) by congruence. subst v.
  fold exact in VL, VU.
  unfold coupling_coefficient in EK. rewrite (proj2 (Nat.eqb_neq _ _) NE), E1 in EK. cbn [bind] in EK. rewrite E2 in EK. cbn [bind] in EK.
  rewrite EM in EK. cbn [bind] in EK.
  assert (PP : 0 <= l11 * l22) by (apply Qmult_le_0_compat; assumption).
  destruct AR as (PR & AR). destruct (AR _ PP) as (RP & RL & RU).
  assert (QP : l11 * l22 == product) by (unfold product; rewrite Q1, Q2; reflexivity).
  fold product in B. rewrite <- (PR _ _ QP) in B.
  rewrite <- QP. set (y := l11 * l22) in *. set (den := root y) in *.
  assert (DP : 0 < den) by lra.
  replace (Qlt_bool den (1 # 1000000000000000)) with false in EK by (symmetry; apply Qlt_bool_false; exact B).
  destruct (Qlt_bool _ _) in EK; [discriminate|]. injection EK as <-.
  split; [apply Qle_shift_div_l; [exact DP | lra]|].
  assert (KQ : mutual / den * (mutual / den) * (den * den) == mutual * mutual) by (field; lra).
  set (kk := mutual / den * (mutual / den)) in *.
  assert (KP : 0 <= kk) by (unfold kk; apply square_nonneg).
  set (x := exact * exact) in *. set (z := den * den) in *. set (mm := mutual * mutual) in *.
  clearbody kk x z mm y. 
  assert (KL : kk * ((1 - (1 # 10000000)) * (1 - (1 # 10000000)) * y) <= kk * z).
  { rewrite !(Qmult_comm kk). apply Qmult_le_compat_r; assumption. }
  assert (KU : kk * z <= kk * ((1 + (1 # 10000000)) * (1 + (1 # 10000000)) * y)).
  { rewrite !(Qmult_comm kk). apply Qmult_le_compat_r; assumption. }
  set (ky := kk * y) in *. 
  assert (F1 : kk * ((1 - (1 # 10000000)) * (1 - (1 # 10000000)) * y) == (1 - (1 # 10000000)) * (1 - (1 # 10000000)) * ky) by (unfold ky; ring).
  assert (F2 : kk * ((1 + (1 # 10000000)) * (1 + (1 # 10000000)) * y) == (1 + (1 # 10000000)) * (1 + (1 # 10000000)) * ky) by (unfold ky; ring).
  rewrite F1 in KL. rewrite F2 in KU. set (kz := kk * z) in *. clearbody ky kz. split; lra.
Qed.

Theorem C105_symmetric : forall root m r s d k k', accurate root -> complete m -> outside_column m -> sound_core m ->
  distinct_names m -> 0 <= m_magnetizing m -> ~ turns m 0 == 0 ->
  (s < windings m)%nat -> (d < windings m)%nat -> inductance_by_name m = Ok r ->
  coupling_coefficient root m s d = Ok k -> coupling_coefficient root m d s = Ok k' -> k == k'.
Proof.
  intros root m r s d k k' AR C O SC D LP T S DD E EK EK'.
  destruct (Nat.eq_dec s d) as [->|NE]; [assert (k = k') by congruence; subst; reflexivity|].
  destruct (coefficient_parts root m r s d AR C O SC D LP T NE S DD E)
    as (l11 & l22 & mutual & E1 & E2 & EM & _ & _ & P1 & P2 & _).
  unfold coupling_coefficient in EK, EK'. rewrite (Nat.eqb_sym d s) in EK'. rewrite (proj2 (Nat.eqb_neq _ _) NE) in EK, EK'.
  rewrite E1 in EK. rewrite E2 in EK'. cbn [bind] in EK, EK'. rewrite E2 in EK. rewrite E1 in EK'. cbn [bind] in EK, EK'.
  rewrite EM in EK. cbn [bind] in EK.
  assert (MS : exists mutual', mutual_inductance root m d s = Ok mutual' /\ mutual' == mutual).
  { unfold mutual_inductance in *. rewrite (Nat.eqb_sym d s). rewrite (proj2 (Nat.eqb_neq _ _) NE) in *.
    destruct (coupling_matrix m) as [network| | |] eqn:EC; try discriminate. cbn [bind] in *.
    destruct (coupling_kind m network EC) as [(H & ->)|(H & M & ->)].
    - injection EM as <-. eexists. split; [reflexivity|]. apply (proj1 AR). ring.
    - injection EM as <-. eexists. split; [reflexivity|].
      destruct (coupling_off m _ H EC) as (M' & EQ & ENM). injection EQ as <-.
      destruct SC as (HC & HG & _). destruct (network_facts m _ _ M HC HG ENM) as (_ & SY & _ & _). apply SY; assumption. }
  destruct MS as (mutual' & EM' & QM). rewrite EM' in EK'. cbn [bind] in EK'.
  assert (RE : root (l22 * l11) == root (l11 * l22)) by (apply (proj1 AR); ring).
  set (d1 := root (l11 * l22)) in *. set (d2 := root (l22 * l11)) in *. clearbody d1 d2.
  destruct (Qlt_bool d1 _) eqn:B1; destruct (Qlt_bool d2 _) eqn:B2; qb; try (exfalso; lra).
  - injection EK as <-. injection EK' as <-. reflexivity.
  - destruct (Qlt_bool _ _) in EK; [discriminate|]. destruct (Qlt_bool _ _) in EK'; [discriminate|].
    injection EK as <-. injection EK' as <-. rewrite QM, RE. reflexivity.
Qed.

(** ** Concrete cases *)

(** A square root to eight figures. *)
Definition decimal_root (x : Q) : Q :=
  let q := Qred x in
  Z.sqrt (Qnum q * Zpos (Qden q) * 10 ^ 16) # (Qden q * 100000000).

Lemma decimal_root_accurate : accurate decimal_root.
Proof.
  split.
  - intros x y E. unfold decimal_root. rewrite (Qred_complete x y E). reflexivity.
  - intros x P. unfold decimal_root. set (q := Qred x). assert (EQ : q == x) by apply Qred_correct.
    assert (NP : (0 <= Qnum q)%Z). { rewrite <- EQ in P. unfold Qle in P. cbn in P. lia. }
    set (a := (Qnum q * Zpos (Qden q) * 10 ^ 16)%Z). set (z := Z.sqrt a).
    assert (AP : (0 <= a)%Z) by (unfold a; apply Z.mul_nonneg_nonneg; [apply Z.mul_nonneg_nonneg; lia | lia]).
    pose proof (Z.sqrt_spec a AP) as (SL & SU). fold z in SL, SU.
    assert (ZP : (0 <= z)%Z) by apply Z.sqrt_nonneg.
    set (D := inject_Z (Zpos (Qden q * 100000000) * Zpos (Qden q * 100000000))).
    assert (DP : 0 < D) by (unfold D, Qlt; cbn; lia).
    assert (RR : (z # Qden q * 100000000) * (z # Qden q * 100000000) == inject_Z (z * z) / D).
    { unfold D. rewrite inject_Z_mult, inject_Z_mult, (Qmake_Qdiv z). field. unfold Qeq; cbn; lia. }
    assert (XX : x == inject_Z a / D).
    { rewrite <- EQ. unfold D, a. clear. destruct q as (n, d). cbn [Qnum Qden].
      rewrite Pos2Z.inj_mul, !inject_Z_mult, (Qmake_Qdiv n). change (inject_Z (10 ^ 16)) with (inject_Z 100000000 * inject_Z 100000000).
      field. unfold Qeq; cbn; lia. }
    split; [unfold Qle; cbn; lia|]. rewrite RR, XX.
    assert (AE : (1 - (1 # 10000000)) * (1 - (1 # 10000000)) * inject_Z a <= inject_Z (z * z)).
    { destruct (Z.eq_dec a 0) as [Z0|NZ].
      - rewrite Z0. assert (0 <= inject_Z (z * z)) by (unfold Qle; cbn; nia). change (inject_Z 0) with 0. lra.
      - assert (AL : (10 ^ 16 <= a)%Z).
        { unfold a. assert ((1 <= Qnum q * Zpos (Qden q))%Z).
          { assert (Qnum q <> 0)%Z by (intro Z0; apply NZ; unfold a; rewrite Z0; reflexivity). nia. } nia. }
        assert (ZL : (10 ^ 8 <= z)%Z) by (apply Z.sqrt_le_square; [exact AP | lia | change (10 ^ 8 * 10 ^ 8)%Z with (10 ^ 16)%Z; exact AL]).
        assert (W : (9999999 * (z + 1) <= 10000000 * z)%Z) by lia.
        assert (G : (9999999 * 9999999 * a <= 10000000 * 10000000 * (z * z))%Z) by nia.
        rewrite Zle_Qle in G. rewrite (inject_Z_mult _ a), (inject_Z_mult _ (z * z)) in G.
        change (inject_Z (9999999 * 9999999)) with (99999980000001 # 1) in G.
        change (inject_Z (10000000 * 10000000)) with (100000000000000 # 1) in G. lra. }
    assert (AU : inject_Z (z * z) <= inject_Z a) by (rewrite <- Zle_Qle; lia).
    assert (A0 : 0 <= inject_Z a) by (change 0 with (inject_Z 0); rewrite <- Zle_Qle; lia).
    split.
    + setoid_replace ((1 - (1 # 10000000)) * (1 - (1 # 10000000)) * (inject_Z a / D)) with
        ((1 - (1 # 10000000)) * (1 - (1 # 10000000)) * inject_Z a / D) by (field; lra).
      apply Qmult_le_compat_r; [exact AE | apply Qlt_le_weak, Qinv_lt_0_compat; exact DP].
    + setoid_replace ((1 + (1 # 10000000)) * (1 + (1 # 10000000)) * (inject_Z a / D)) with
        ((1 + (1 # 10000000)) * (1 + (1 # 10000000)) * inject_Z a / D) by (field; lra).
      apply Qmult_le_compat_r; [lra | apply Qlt_le_weak, Qinv_lt_0_compat; exact DP].
Qed.

(** Ten and five turns; one point of the grid sees both. *)
Definition sample_field : field_data :=
  mkField [mkPoint 1 0 false; mkPoint 2 0 false] [mkFilament 0 1 1; mkFilament 1 1 (-(1))] 
    (fun p f => if Nat.eqb (f_winding f) 0 then p_x p else 1) (fun _ _ => 0) (1 # 100) false false true 1 3 (1 # 3).
Definition sample_magnetic (ws : list winding) (sections : list section) : magnetic :=
  mkMagnetic ws true NetworkProperties.sample_core sections 5 100 [50] 100 [50] true (Some 1) sample_field.
Definition together : magnetic :=
  sample_magnetic [mk_winding "primary"%string 10 None; mk_winding "secondary"%string 5 None] [].
Definition apart : magnetic :=
  sample_magnetic [mk_winding "primary"%string 10 None; mk_winding "secondary"%string 5 (Some 1%Z)] [].
Definition alone : magnetic :=
  mkMagnetic [mk_winding "primary"%string 10 None] true NetworkProperties.sample_core [] 5 100 [50] 100 [50] true (Some 1)
    (mkField (fd_points sample_field) [mkFilament 0 1 1] (fd_kx sample_field) (fd_ky sample_field) (1 # 100) false false true 1 3 (1 # 3)).

Lemma sample_complete : forall ws sections, List.length ws = 2%nat -> complete (sample_magnetic ws sections).
Proof.
  intros ws sections L. unfold complete, windings. cbn [sample_magnetic m_core_processed m_bobbin_processed m_column_width m_field m_windings].
  repeat split; [exists 1; reflexivity | discriminate|]. rewrite L. intros f [<-|[<-|[]]]; cbn; lia.
Qed.
Lemma sample_outside : forall ws sections, outside_column (sample_magnetic ws sections).
Proof.
  intros. unfold outside_column. cbn. repeat split; try lra.
  - injection H as <-. lra.
  - intros p [<-|[<-|[]]]; cbn; lra.
Qed.
Lemma sample_sound : forall ws sections, sound_core (sample_magnetic ws sections).
Proof. intros. unfold sound_core. cbn. repeat split; repeat constructor; cbn; lra. Qed.

Definition reduced (o : outcome table) : outcome table := bind o (fun t => Ok (map (map Qred) t)).
Definition reduced_named (o : outcome named) : outcome named :=
  bind o (fun r => Ok (map (fun w => match w with (x, y, v) => (x, y, Qred v) end) r)).

Example C102_witness : complete together /\ outside_column together /\
  reduced (leakage_matrix together) = Ok [[9 # 25; 1 # 5]; [1 # 5; 3 # 25]] /\
  bind (field_energy together [2; - (1)]) (fun e => Ok (Qred e)) = Ok (19 # 100).
Proof.
  split; [apply sample_complete; reflexivity|]. split; [apply sample_outside|]. split; vm_compute; reflexivity.
Qed.

Example C103_witness : same_column together 0 1 /\ other_column apart 0 1 /\ sound_core apart /\
  distinct_names together /\
  bind (pair_leakage together 0 1) (fun v => Ok (Qred v)) = Ok (1 # 25) /\
  bind (pair_leakage together 1 0) (fun v => Ok (Qred v)) = Ok (1 # 100) /\
  reduced_named (leakage_by_name together)
    = Ok [("primary"%string, "primary"%string, 0); ("primary"%string, "secondary"%string, 1 # 25);
          ("secondary"%string, "primary"%string, 1 # 100); ("secondary"%string, "secondary"%string, 0)].
Proof.
  split; [left; reflexivity|]. split; [split; [reflexivity|]; exists [0%nat; 2%nat]; split; [reflexivity | discriminate]|].
  split; [apply sample_sound|].
  split; [repeat constructor; cbn; intuition discriminate|]. repeat split; vm_compute; reflexivity.
Qed.

Definition value {A : Type} (o : outcome A) (d : A) : A := match o with Ok v => v | _ => d end.

(** Across columns the leakage does not scale with the turns squared. *)
Lemma apart_matrix : exists M,
  coil_inductance_matrix (m_core apart) (Some (m_plain_ungapped apart)) (m_plain_gaps apart) (m_sections apart) (m_windings apart) = Ok M /\
  cell M 0 0 == 2 # 3 /\ cell M 0 1 == - (1 # 6) /\ cell M 1 0 == - (1 # 6) /\ cell M 1 1 == 115 # 744.
Proof.
  exists (value (coil_inductance_matrix (m_core apart) (Some (m_plain_ungapped apart)) (m_plain_gaps apart) (m_sections apart) (m_windings apart)) []).
  repeat split; vm_compute; reflexivity.
Qed.

Theorem C103_turns_referral_refuted : exists m s d v v',
  complete m /\ sound_core m /\ other_column m s d /\
  pair_leakage m s d = Ok v /\ pair_leakage m d s = Ok v' /\
  ~ v * (turns m d * turns m d) == v' * (turns m s * turns m s).
Proof.
  destruct apart_matrix as (M & EM & A & B & C & D).
  exists apart, 0%nat, 1%nat, (cell M 0 0 - cell M 0 1 * cell M 0 1 / cell M 1 1), (cell M 1 1 - cell M 1 0 * cell M 1 0 / cell M 0 0).
  split; [apply sample_complete; reflexivity|]. split; [apply sample_sound|].
  split; [split; [reflexivity|]; exists [0%nat; 2%nat]; split; [reflexivity | discriminate]|].
  assert (R : resolve_winding_columns (m_core apart) (m_sections apart) (m_windings apart) = Ok [0%nat; 2%nat]) by reflexivity.
  assert (P : has_non_main_placement (m_core apart) (m_sections apart) (m_windings apart) = Ok true) by reflexivity.
  assert (W : windings apart = 2%nat) by reflexivity.
  assert (K : m_core_processed apart = true) by reflexivity.
  unfold pair_leakage. rewrite EM, R, P, W, K. cbn [negb Nat.ltb Nat.leb andb bind nth Nat.eqb].
  split; [reflexivity|]. split; [reflexivity|]. rewrite A, B, C, D. discriminate.
Qed.

Example C104_witness : all_on_main together /\ some_off_main apart /\
  reduced_named (inductance_by_name together)
    = Ok [("primary"%string, "primary"%string, 134 # 25); ("primary"%string, "secondary"%string, 27 # 10);
          ("secondary"%string, "primary"%string, 27 # 10); ("secondary"%string, "secondary"%string, 137 # 100)].
Proof. repeat split; vm_compute; reflexivity. Qed.

Example C104_cantilever_witness : exists c, cantilever_of together = Ok c /\ Qred (cell (ec_leakage c) 0 1) = (133 # 3375).
Proof. eexists. split; [vm_compute; reflexivity|]. vm_compute. reflexivity. Qed.

(** The same matrix is not what the extended cantilever model uses when two
    windings are on different columns, nor for a single winding. *)
Theorem C104_cantilever_columns_refuted : exists m r t,
  complete m /\ distinct_names m /\ sound_core m /\ some_off_main m /\
  inductance_by_name m = Ok r /\ assembled_matrix m = Ok t /\ ~ cell t 0 1 == entry_of m r 0 1.
Proof.
  exists apart, (value (inductance_by_name apart) []), (value (assembled_matrix apart) []). split; [apply sample_complete; reflexivity|].
  split; [repeat constructor; cbn; intuition discriminate|]. split; [apply sample_sound|].
  split; [reflexivity|]. split; [vm_compute; reflexivity|]. split; [vm_compute; reflexivity|].
  vm_compute. discriminate.
Qed.

Theorem C104_cantilever_single_refuted : exists m r t,
  complete m /\ all_on_main m /\ windings m = 1%nat /\
  inductance_by_name m = Ok r /\ assembled_matrix m = Ok t /\ ~ cell t 0 0 == entry_of m r 0 0.
Proof.
  exists alone, (value (inductance_by_name alone) []), (value (assembled_matrix alone) []). split.
  { unfold complete. cbn. repeat split; [exists 1; reflexivity | discriminate|]. intros f [<-|[]]; cbn; lia. }
  split; [reflexivity|]. split; [reflexivity|]. split; [vm_compute; reflexivity|]. split; [vm_compute; reflexivity|].
  vm_compute. discriminate.
Qed.

(** The mutual inductance that the call for a pair reports is not the entry of
    the matrix: it leaves out the leakage the two windings share. *)
Theorem C105_mutual_entry_refuted : exists m r v, complete m /\ distinct_names m /\ all_on_main m /\
  inductance_by_name m = Ok r /\ mutual_inductance decimal_root m 0 1 = Ok v /\
  v + (1 # 10) < entry_of m r 0 1.
Proof.
  destruct (C105_mutual decimal_root together 0 1 decimal_root_accurate) as (v & EV & VP & _ & VU);
    [reflexivity | discriminate | cbn; lra | discriminate|].
  exists together, (value (inductance_by_name together) []), v. split; [apply sample_complete; reflexivity|].
  split; [repeat constructor; cbn; intuition discriminate|]. split; [reflexivity|].
  split; [vm_compute; reflexivity|]. split; [exact EV|].
  assert (EE : entry_of together (value (inductance_by_name together) []) 0 1 == 27 # 10) by (vm_compute; reflexivity).
  rewrite EE. clear EV EE.
  setoid_replace (m_magnetizing together * (turns together 0 / turns together 0) * (turns together 1 / turns together 0))
    with (5 # 2) in VU by (vm_compute; reflexivity).
  destruct (Qlt_le_dec (v + (1 # 10)) (27 # 10)) as [|C]; [assumption|]. exfalso.
  assert ((26 # 10) * (26 # 10) <= v * v) by (apply Qmult_le_compat_nonneg; lra). lra.
Qed.

Example C105_witness : accurate decimal_root /\
  match coupling_coefficient decimal_root together 0 1 with
  | Ok k => 0 < k /\ k < 1
  | _ => False
  end.
Proof. split; [exact decimal_root_accurate|]. vm_compute. repeat split. Qed.

Print Assumptions C102_energy.
Print Assumptions C102_passive.
Print Assumptions C103_same_column.
Print Assumptions C104_passive.
Print Assumptions C104_several_columns.
Print Assumptions C105_bounded.
Print Assumptions C105_value.
