(** Lemmas on quadratic forms and on the energy of the window field. *)
From Coq Require Import ZArith QArith Qabs List String Bool Lia Lra Lqa.
From Verif Require Import Base QAux NetworkModel NetworkProofs CantileverModel CantileverProofs CantileverProperties
  InductanceModel LossProofs.
Import ListNotations.
Open Scope Q_scope.

(** ** Quadratic forms *)

Definition semidefinite (n : nat) (A : matrix) : Prop := forall v, 0 <= quadratic_form n A v.

Lemma quadratic_ext : forall n A B u v,
  (forall i k, (i < n)%nat -> (k < n)%nat -> A i k == B i k) -> (forall i, (i < n)%nat -> u i == v i) ->
  quadratic_form n A u == quadratic_form n B v.
Proof.
  intros n A B u v E F. unfold quadratic_form. apply sum_ext. intros i I. rewrite (F i I).
  rewrite (sum_ext n (fun k => A i k * u k) (fun k => B i k * v k)); [reflexivity|].
  intros k K. rewrite (E i k I K), (F k K). reflexivity.
Qed.

Lemma quadratic_plus : forall n A B v,
  quadratic_form n (fun i k => A i k + B i k) v == quadratic_form n A v + quadratic_form n B v.
Proof.
  intros. unfold quadratic_form. rewrite <- sum_plus. apply sum_ext. intros i I.
  rewrite (sum_ext n _ (fun k => A i k * v k + B i k * v k)) by (intros; ring).
  rewrite sum_plus. ring.
Qed.

Lemma quadratic_scale : forall n c A v,
  quadratic_form n (fun i k => c * A i k) v == c * quadratic_form n A v.
Proof.
  intros. unfold quadratic_form. rewrite <- sum_scale. apply sum_ext. intros i I.
  rewrite (sum_ext n _ (fun k => c * (A i k * v k))) by (intros; ring). rewrite sum_scale. ring.
Qed.

Lemma quadratic_rank1 : forall n g v,
  quadratic_form n (fun i k => g i * g k) v == sum n (fun i => g i * v i) * sum n (fun i => g i * v i).
Proof.
  intros. unfold quadratic_form. rewrite <- sum_scale_r. apply sum_ext. intros i I.
  rewrite (sum_ext n _ (fun k => g i * (g k * v k))) by (intros; ring). rewrite sum_scale. ring.
Qed.

Definition two (i j : nat) (x y : Q) : vector := fun k => (if Nat.eqb k i then x else 0) + (if Nat.eqb k j then y else 0).

Lemma sum_two : forall n i j x y f, (i < n)%nat -> (j < n)%nat ->
  sum n (fun k => f k * two i j x y k) == f i * x + f j * y.
Proof.
  intros n i j x y f I J. unfold two.
  rewrite (sum_ext n _ (fun k => (if Nat.eqb k i then f i * x else 0) + (if Nat.eqb k j then f j * y else 0))).
  - rewrite sum_update by exact J. rewrite (sum_single n i (fun _ => f i * x)).
    replace (Nat.ltb i n) with true by (symmetry; apply Nat.ltb_lt; exact I). reflexivity.
  - intros k K.
    assert (X : (if Nat.eqb k i then f i * x else 0) == f k * (if Nat.eqb k i then x else 0))
      by (destruct (Nat.eqb_spec k i) as [->|]; ring).
    assert (Y : (if Nat.eqb k j then f j * y else 0) == f k * (if Nat.eqb k j then y else 0))
      by (destruct (Nat.eqb_spec k j) as [->|]; ring).
    rewrite X, Y. ring.
Qed.

Lemma quadratic_two : forall n A i j x y, (i < n)%nat -> (j < n)%nat ->
  quadratic_form n A (two i j x y) == x * x * A i i + x * y * A i j + y * x * A j i + y * y * A j j.
Proof.
  intros n A i j x y I J. unfold quadratic_form.
  rewrite (sum_ext n _ (fun r => (A r i * x + A r j * y) * two i j x y r)).
  2:{ intros r R. rewrite sum_two by assumption. ring. }
  rewrite (sum_two n i j x y (fun r => A r i * x + A r j * y)) by assumption. ring.
Qed.

Lemma semidefinite_bound : forall n A i j, symmetric n A -> semidefinite n A -> (i < n)%nat -> (j < n)%nat ->
  0 <= A i i /\ A i j * A i j <= A i i * A j j.
Proof.
  intros n A i j S P I J.
  assert (D : forall k, (k < n)%nat -> 0 <= A k k).
  { intros k K. pose proof (P (two k k 1 0)) as Q. rewrite quadratic_two in Q by assumption. lra. }
  split; [apply D; exact I|].
  pose proof (S j i J I) as SE.
  assert (Q : forall x y, 0 <= x * x * A i i + 2 * (x * y) * A i j + y * y * A j j).
  { intros x y. pose proof (P (two i j x y)) as Q. rewrite quadratic_two in Q by assumption. rewrite SE in Q. lra. }
  pose proof (D i I) as DI. pose proof (D j J) as DJ.
  set (p := A i i) in *. set (q := A i j) in *. set (r := A j j) in *. clearbody p q r. clear -Q DI DJ.
  destruct (Qlt_le_dec 0 r) as [RP|RZ].
  - specialize (Q r (- q)). assert (E : r * r * p + 2 * (r * - q) * q + - q * - q * r == r * (p * r - q * q)) by ring.
    rewrite E in Q. destruct (Qlt_le_dec (p * r) (q * q)) as [N|]; [|assumption]. exfalso.
    assert (r * (p * r - q * q) < 0); [|lra]. setoid_replace 0 with (r * 0) by ring. 
    apply Qmult_lt_l; [exact RP | lra].
  - assert (RE : r == 0) by lra. clear RZ DJ.
    assert (QZ : q == 0).
    { destruct (Q_dec q 0) as [[N|N]|Z]; [| |exact Z]; exfalso.
      - specialize (Q 1 ((p + 1) / (- (2) * q))).
        assert (E : 2 * (1 * ((p + 1) / (- (2) * q))) * q == - (p + 1)) by (field; lra).
        rewrite E, RE in Q. lra.
      - specialize (Q 1 ((p + 1) / (- (2) * q))).
        assert (E : 2 * (1 * ((p + 1) / (- (2) * q))) * q == - (p + 1)) by (field; lra).
        rewrite E, RE in Q. lra. }
    rewrite QZ, RE. lra.
Qed.

Lemma quadratic_add_compare : forall n A B, semidefinite n A -> semidefinite n B ->
  semidefinite n (fun i k => A i k + B i k).
Proof. intros n A B PA PB v. rewrite quadratic_plus. pose proof (PA v). pose proof (PB v). lra. Qed.

(** Keeping only the entries within the classes of a partition keeps the form
    semidefinite. *)
Lemma quadratic_masked : forall n A (column : nat -> nat) C v,
  (forall i, (i < n)%nat -> (column i < C)%nat) ->
  quadratic_form n (fun i k => if Nat.eqb (column i) (column k) then A i k else 0) v
  == sum C (fun c => quadratic_form n A (fun i => if Nat.eqb (column i) c then v i else 0)).
Proof.
  intros n A column C v B. unfold quadratic_form. rewrite sum_comm. apply sum_ext. intros i I.
  set (row := fun c => sum n (fun k => A i k * (if Nat.eqb (column k) c then v k else 0))).
  rewrite (sum_ext C _ (fun c => if Nat.eqb c (column i) then v i * row c else 0)).
  - rewrite (sum_single C (column i) (fun c => v i * row c)).
    replace (Nat.ltb (column i) C) with true by (symmetry; apply Nat.ltb_lt; apply B; exact I).
    unfold row. rewrite (sum_ext n _ (fun k => A i k * (if Nat.eqb (column k) (column i) then v k else 0))); [reflexivity|].
    intros k K. rewrite (Nat.eqb_sym (column i)). destruct (Nat.eqb (column k) (column i)); ring.
  - intros c CC. rewrite (Nat.eqb_sym (column i) c). destruct (Nat.eqb c (column i)); [reflexivity | ring].
Qed.

Lemma semidefinite_masked : forall n A (column : nat -> nat) C,
  (forall i, (i < n)%nat -> (column i < C)%nat) -> semidefinite n A ->
  semidefinite n (fun i k => if Nat.eqb (column i) (column k) then A i k else 0).
Proof.
  intros n A column C B P v. rewrite (quadratic_masked n A column C v B). apply sum_nonneg. intros. apply P.
Qed.

(** ** The energy as a quadratic form *)

Lemma fold_Qsum : forall {A : Type} (f : A -> Q) l s0, fold_left (fun s x => s + f x) l s0 == s0 + Qsum (map f l).
Proof.
  intros A f. induction l as [|h l IH]; intro s0; cbn [fold_left map Qsum]; [lra|]. rewrite IH. lra.
Qed.

Lemma Qsum_sum : forall {A : Type} n (f : A -> nat -> Q) l,
  Qsum (map (fun x => sum n (f x)) l) == sum n (fun k => Qsum (map (fun x => f x k) l)).
Proof.
  intros A n f. induction l as [|h l IH]; cbn [map Qsum].
  - symmetry. apply sum_zero. intros. reflexivity.
  - rewrite IH, <- sum_plus. reflexivity.
Qed.

Section Form.
Variable d : field_data.
Variable width : Q.

Definition skipped (p : grid_point) (f : filament) : bool :=
  (fd_multi_window d && Qlt_bool (f_x f * p_x p) 0) || p_in_core p.
Definition gain (k : grid_point -> filament -> Q) (p : grid_point) (a : nat) : Q :=
  Qsum (map (fun f => if Nat.eqb (f_winding f) a then (if skipped p f then 0 else f_share f * k p f) else 0) (fd_filaments d)).
Definition weight (p : grid_point) : Q := (1 # 2) * fd_mu d * fd_area d * revolved_length d width p.
Definition coefficient (a b : nat) : Q :=
  Qsum (map (fun p => weight p * (gain (fd_kx d) p a * gain (fd_kx d) p b + gain (fd_ky d) p a * gain (fd_ky d) p b)) (fd_points d)).

Lemma coefficient_sym : forall a b, coefficient a b == coefficient b a.
Proof. intros a b. unfold coefficient. apply Qsum_map_ext. intros. ring. Qed.

Lemma quadratic_points : forall n v,
  quadratic_form n coefficient v
  == Qsum (map (fun p => weight p * (sum n (fun a => gain (fd_kx d) p a * v a) * sum n (fun a => gain (fd_kx d) p a * v a)
       + sum n (fun a => gain (fd_ky d) p a * v a) * sum n (fun a => gain (fd_ky d) p a * v a))) (fd_points d)).
Proof.
  intros n v. unfold quadratic_form, coefficient.
  rewrite (Qsum_map_ext _ _ (fun p => sum n (fun i => v i * sum n (fun k =>
     weight p * (gain (fd_kx d) p i * gain (fd_kx d) p k + gain (fd_ky d) p i * gain (fd_ky d) p k) * v k))) (fd_points d)).
  - rewrite Qsum_sum. apply sum_ext. intros i I. rewrite Qsum_map_mul. 
    assert (T : sum n (fun k => Qsum (map (fun p => weight p * (gain (fd_kx d) p i * gain (fd_kx d) p k + gain (fd_ky d) p i * gain (fd_ky d) p k)) (fd_points d)) * v k)
      == Qsum (map (fun p => sum n (fun k => weight p * (gain (fd_kx d) p i * gain (fd_kx d) p k + gain (fd_ky d) p i * gain (fd_ky d) p k) * v k)) (fd_points d))).
    { rewrite (Qsum_sum n (fun p k => weight p * (gain (fd_kx d) p i * gain (fd_kx d) p k + gain (fd_ky d) p i * gain (fd_ky d) p k) * v k)).
      apply sum_ext. intros k K. rewrite Qmult_comm, <- Qsum_map_mul. apply Qsum_map_ext. intros. ring. }
    rewrite T. reflexivity.
  - intros p _.
    pose proof (quadratic_rank1 n (gain (fd_kx d) p) v) as RX. pose proof (quadratic_rank1 n (gain (fd_ky d) p) v) as RY.
    rewrite <- RX, <- RY, <- quadratic_plus, <- quadratic_scale. unfold quadratic_form. reflexivity.
Qed.

Lemma coefficient_semidefinite : forall n, (forall p, In p (fd_points d) -> 0 <= weight p) -> semidefinite n coefficient.
Proof.
  intros n W v. rewrite quadratic_points. apply Qsum_nonneg. apply Forall_map, Forall_forall. intros p I.
  apply Qmult_le_0_compat; [apply W; exact I|].
  pose proof (square_nonneg (sum n (fun a => gain (fd_kx d) p a * v a))).
  pose proof (square_nonneg (sum n (fun a => gain (fd_ky d) p a * v a))). lra.
Qed.

Lemma component_gain : forall n k mags dirs p, (forall f, In f (fd_filaments d) -> (f_winding f < n)%nat) ->
  component d k mags dirs p == sum n (fun a => gain k p a * (at_ mags a * at_ dirs a)).
Proof.
  intros n k mags dirs p B. unfold component. rewrite fold_Qsum, Qplus_0_l. unfold gain.
  rewrite (sum_ext n _ (fun a => Qsum (map (fun f =>
    (if Nat.eqb (f_winding f) a then (if skipped p f then 0 else f_share f * k p f) else 0) * (at_ mags a * at_ dirs a)) (fd_filaments d)))).
  2:{ intros a _. rewrite Qmult_comm, <- Qsum_map_mul. apply Qsum_map_ext. intros. ring. }
  rewrite <- (Qsum_sum n (fun f a =>
    (if Nat.eqb (f_winding f) a then (if skipped p f then 0 else f_share f * k p f) else 0) * (at_ mags a * at_ dirs a))).
  apply Qsum_map_ext. intros f I.
  rewrite (sum_ext n _ (fun a => if Nat.eqb a (f_winding f) then (if skipped p f then 0 else f_share f * k p f) * (at_ mags a * at_ dirs a) else 0)).
  2:{ intros a _. rewrite (Nat.eqb_sym (f_winding f)). destruct (Nat.eqb a (f_winding f)); ring. }
  rewrite (sum_single n (f_winding f) (fun a => (if skipped p f then 0 else f_share f * k p f) * (at_ mags a * at_ dirs a))).
  replace (Nat.ltb (f_winding f) n) with true by (symmetry; apply Nat.ltb_lt; apply B; exact I).
  unfold contribution, skipped, filament_current.
  destruct (fd_multi_window d && Qlt_bool (f_x f * p_x p) 0); cbn [orb]; [ring|].
  destruct (p_in_core p); ring.
Qed.

Lemma integrate_quadratic : forall n mags dirs, (forall f, In f (fd_filaments d) -> (f_winding f < n)%nat) ->
  integrate d width mags dirs == quadratic_form n coefficient (fun a => at_ mags a * at_ dirs a).
Proof.
  intros n mags dirs B. unfold integrate.
  rewrite (fold_Qsum (fun p => (1 # 2) * fd_mu d * (component d (fd_kx d) mags dirs p * component d (fd_kx d) mags dirs p
     + component d (fd_ky d) mags dirs p * component d (fd_ky d) mags dirs p) * fd_area d * revolved_length d width p)).
  rewrite Qplus_0_l, quadratic_points. apply Qsum_map_ext. intros p I.
  rewrite !(component_gain n) by exact B. unfold weight. ring.
Qed.
End Form.

(** ** Runs over lists *)

Lemma outcomes_ok : forall {A B : Type} (f : A -> outcome B) l r, outcomes f l = Ok r ->
  Forall2 (fun x y => f x = Ok y) l r.
Proof.
  intros A B f. induction l as [|x l IH]; intros r H; cbn [outcomes] in H.
  - injection H as <-. constructor.
  - destruct (f x) as [y| | |] eqn:E; try discriminate. cbn [bind] in H.
    destruct (outcomes f l) as [ys| | |] eqn:E2; try discriminate. cbn [bind] in H. injection H as <-.
    constructor; [exact E | apply IH; reflexivity].
Qed.

Lemma outcomes_total : forall {A B : Type} (f : A -> outcome B) l, (forall x, In x l -> exists y, f x = Ok y) ->
  exists r, outcomes f l = Ok r.
Proof.
  intros A B f. induction l as [|x l IH]; intro H; [exists []; reflexivity|].
  destruct (H x (or_introl eq_refl)) as (y & E). destruct IH as (ys & E2); [intros; apply H; right; assumption|].
  exists (y :: ys). cbn [outcomes]. rewrite E. cbn [bind]. rewrite E2. reflexivity.
Qed.

Lemma outcomes_seq : forall {B : Type} (f : nat -> outcome B) n r (def : B), outcomes f (seq 0 n) = Ok r ->
  List.length r = n /\ forall i, (i < n)%nat -> f i = Ok (nth i r def).
Proof.
  intros B f n r def H. apply outcomes_ok in H.
  assert (G : forall s n r, Forall2 (fun x y => f x = Ok y) (seq s n) r ->
    List.length r = n /\ forall i, (i < n)%nat -> f (s + i)%nat = Ok (nth i r def)).
  { clear n r H. intros s n. revert s. induction n as [|n IH]; intros s r H; cbn [seq] in H; inversion H; subst.
    - split; [reflexivity | intros; lia].
    - destruct (IH _ _ H4) as (L & G). split; [cbn; lia|]. intros [|i] I; cbn [nth].
      + rewrite Nat.add_0_r. assumption.
      + rewrite <- Nat.add_succ_comm. apply G. lia. }
  destruct (G 0%nat n r H) as (L & G'). split; assumption.
Qed.

(** ** The leakage matrix *)

Definition complete (m : magnetic) : Prop :=
  m_core_processed m = true /\ m_bobbin_processed m = true /\ (exists w, m_column_width m = Some w) /\
  fd_points (m_field m) <> [] /\ forall f, In f (fd_filaments (m_field m)) -> (f_winding f < windings m)%nat.

Lemma abs_direction : forall i, Qabs i * (if Qlt_bool i 0 then - (1) else 1) == i.
Proof.
  intro i. destruct (Qlt_bool i 0) eqn:E.
  - apply Qlt_bool_iff in E. rewrite Qabs_neg by lra. ring.
  - apply Qlt_bool_false in E. rewrite Qabs_pos by lra. ring.
Qed.

Lemma at_map : forall f l k, f 0 == 0 -> at_ (map f l) k == f (at_ l k) \/ (List.length l <= k)%nat.
Proof.
  intros f l k Z. destruct (Nat.lt_ge_cases k (List.length l)) as [L|L]; [left | right; exact L].
  unfold at_. rewrite (nth_indep _ 0 (f 0)) by (rewrite map_length; exact L). rewrite map_nth. reflexivity.
Qed.

Lemma at_map_in : forall f l k, (k < List.length l)%nat -> at_ (map f l) k = f (at_ l k).
Proof.
  intros f l k L. unfold at_. rewrite (nth_indep _ 0 (f 0)) by (rewrite map_length; exact L). apply map_nth.
Qed.

Lemma window_energy_value : forall m mags dirs w, complete m -> m_column_width m = Some w ->
  exists e, window_energy m mags dirs = Ok e /\
    e == quadratic_form (windings m) (coefficient (m_field m) w) (fun a => at_ mags a * at_ dirs a).
Proof.
  intros m mags dirs w (_ & B & _ & P & F) W. unfold window_energy. rewrite B, W. cbn [negb].
  destruct (fd_points (m_field m)) as [|p ps] eqn:E; [congruence|].
  eexists. split; [reflexivity|]. apply integrate_quadratic. exact F.
Qed.

Lemma field_energy_value : forall m currents w, complete m -> m_column_width m = Some w ->
  List.length currents = windings m ->
  exists e, field_energy m currents = Ok e /\
    e == quadratic_form (windings m) (coefficient (m_field m) w) (at_ currents).
Proof.
  intros m currents w C W L. pose proof C as (P & _). unfold field_energy. rewrite P, L, Nat.eqb_refl. cbn [negb].
  destruct (window_energy_value m (map Qabs currents) (map (fun i => if Qlt_bool i 0 then - (1) else 1) currents) w C W) as (e & E & Q).
  exists e. split; [exact E|]. rewrite Q. apply quadratic_ext; [intros; reflexivity|].
  intros i I. rewrite !at_map_in by lia. apply abs_direction.
Qed.

Lemma unit_length : forall n a, List.length (unit_currents n a) = n.
Proof. intros. unfold unit_currents. rewrite set_nth_length, repeat_length. reflexivity. Qed.
Lemma pair_length : forall n a b, List.length (pair_currents n a b) = n.
Proof. intros. unfold pair_currents. rewrite set_nth_length. apply unit_length. Qed.

Lemma at_unit_currents : forall n a k, (a < n)%nat -> (k < n)%nat -> at_ (unit_currents n a) k == two a a 1 0 k.
Proof.
  intros n a k A K. unfold unit_currents, two. destruct (Nat.eqb_spec k a) as [->|NE].
  - rewrite set_nth_same by (rewrite repeat_length; exact A). ring.
  - rewrite set_nth_other by exact NE. rewrite at_repeat. ring.
Qed.

Lemma at_pair_currents : forall n a b k, (a < n)%nat -> (b < n)%nat -> a <> b -> (k < n)%nat ->
  at_ (pair_currents n a b) k == two a b 1 1 k.
Proof.
  intros n a b k A B NE K. unfold pair_currents, two. destruct (Nat.eqb_spec k b) as [->|NB].
  - rewrite set_nth_same by (rewrite unit_length; exact B).
    replace (Nat.eqb b a) with false by (symmetry; apply Nat.eqb_neq; congruence). ring.
  - rewrite set_nth_other by exact NB. rewrite at_unit_currents by assumption. unfold two.
    destruct (Nat.eqb k a); ring.
Qed.

Lemma leakage_matrix_value : forall m w, complete m -> m_column_width m = Some w -> windings m <> O ->
  exists l, leakage_matrix m = Ok l /\ List.length l = windings m /\
    Forall (fun row => List.length row = windings m) l /\
    forall a b, (a < windings m)%nat -> (b < windings m)%nat -> cell l a b == 4 * coefficient (m_field m) w a b.
Proof.
  intros m w C W N. unfold leakage_matrix. replace (Nat.eqb (windings m) 0) with false by (symmetry; apply Nat.eqb_neq; exact N).
  set (n := windings m) in *.
  destruct (outcomes_total (fun a => field_energy m (unit_currents n a)) (seq 0 n)) as (self & ES).
  { intros a _. destruct (field_energy_value m (unit_currents n a) w C W (unit_length n a)) as (e & E & _). exists e. exact E. }
  rewrite ES. cbn [bind]. destruct (outcomes_seq _ n self 0 ES) as (LS & VS).
  assert (SE : forall a, (a < n)%nat -> at_ self a == coefficient (m_field m) w a a).
  { intros a A. destruct (field_energy_value m (unit_currents n a) w C W (unit_length n a)) as (e & E & Q).
    pose proof (VS a A) as E'. rewrite E in E'. injection E' as E'. unfold at_. rewrite <- E', Q. fold n.
    rewrite (quadratic_ext n _ (coefficient (m_field m) w) _ (two a a 1 0));
      [|intros; reflexivity | intros; apply at_unit_currents; assumption].
    rewrite quadratic_two by assumption. ring. }
  set (entry := fun a b => if Nat.eqb a b then Ok (4 * at_ self a)
      else bind (field_energy m (pair_currents n (Nat.min a b) (Nat.max a b)))
        (fun pair => Ok (2 * (pair - at_ self (Nat.min a b) - at_ self (Nat.max a b))))).
  assert (EV : forall a b, (a < n)%nat -> (b < n)%nat -> exists v, entry a b = Ok v /\ v == 4 * coefficient (m_field m) w a b).
  { intros a b A B. unfold entry. destruct (Nat.eqb_spec a b) as [->|NE].
    - eexists. split; [reflexivity|]. rewrite SE by exact B. reflexivity.
    - destruct (field_energy_value m (pair_currents n (Nat.min a b) (Nat.max a b)) w C W (pair_length _ _ _)) as (e & E & Q).
      rewrite E. cbn [bind]. eexists. split; [reflexivity|].
      assert (MN : (Nat.min a b < n)%nat) by lia. assert (MX : (Nat.max a b < n)%nat) by lia.
      rewrite !SE by assumption. rewrite Q. fold n.
      rewrite (quadratic_ext n _ (coefficient (m_field m) w) _ (two (Nat.min a b) (Nat.max a b) 1 1));
        [|intros; reflexivity | intros; apply at_pair_currents; try assumption; lia].
      rewrite quadratic_two by assumption.
      destruct (Nat.lt_ge_cases a b) as [AB|AB].
      + rewrite Nat.min_l, Nat.max_r by lia. rewrite (coefficient_sym (m_field m) w b a). ring.
      + rewrite Nat.min_r, Nat.max_l by lia. rewrite (coefficient_sym (m_field m) w b a). ring. }
  change (exists l, outcomes (fun a => outcomes (entry a) (seq 0 n)) (seq 0 n) = Ok l /\ List.length l = n /\
    Forall (fun row => List.length row = n) l /\
    forall a b, (a < n)%nat -> (b < n)%nat -> cell l a b == 4 * coefficient (m_field m) w a b).
  assert (RT : forall a, (a < n)%nat -> exists r, outcomes (entry a) (seq 0 n) = Ok r).
  { intros a A. apply outcomes_total. intros b B. apply in_seq in B.
    destruct (EV a b A ltac:(lia)) as (v & E & _). exists v. exact E. }
  destruct (outcomes_total (fun a => outcomes (entry a) (seq 0 n)) (seq 0 n)) as (l & EL).
  { intros a A. apply in_seq in A. apply RT. lia. }
  exists l. split; [exact EL|]. destruct (outcomes_seq _ n l [] EL) as (LL & VL). split; [exact LL|]. split.
  - apply Forall_forall. intros row I. apply In_nth with (d := []) in I. destruct I as (a & A & <-).
    rewrite LL in A. exact (proj1 (outcomes_seq _ n _ 0 (VL a A))).
  - intros a b A B. destruct (outcomes_seq _ n _ 0 (VL a A)) as (_ & VR). specialize (VR b B).
    destruct (EV a b A B) as (v & E & Q). rewrite E in VR. injection VR as VR. unfold cell. rewrite <- VR. exact Q.
Qed.

Lemma quadratic_congruent : forall n A v, quadratic_form n (fun i k => 4 * A i k) v == 4 * quadratic_form n A v.
Proof. intros. apply quadratic_scale. Qed.

(** ** Matrices by name *)

Definition record (a b : string) (found : option Q) (w : string * string * Q) : option Q :=
  match w with (x, y, v) => if String.eqb x a && String.eqb y b then Some v else found end.

Lemma value_of_fold : forall r a b, value_of r a b = fold_left (record a b) r None.
Proof. reflexivity. Qed.

Lemma record_unique : forall a b v r found, (forall v', In (a, b, v') r -> v' = v) ->
  (found = Some v \/ In (a, b, v) r) -> fold_left (record a b) r found = Some v.
Proof.
  intros a b v. induction r as [|((x, y), z) r IH]; intros found U H; cbn [fold_left].
  - destruct H as [H|[]]. exact H.
  - apply IH; [intros v' I; apply U; right; exact I|]. cbn [record].
    destruct (String.eqb x a && String.eqb y b) eqn:E.
    + apply andb_true_iff in E. destruct E as (EX & EY). apply String.eqb_eq in EX, EY. subst x y.
      left. f_equal. apply U. left. reflexivity.
    + destruct H as [H|[H|H]]; [left; exact H | | right; exact H]. injection H as -> -> ->.
      rewrite !String.eqb_refl in E. discriminate.
Qed.

Lemma record_none : forall a b r found v, fold_left (record a b) r found = Some v -> found = Some v \/ In (a, b, v) r.
Proof.
  intros a b. induction r as [|((x, y), z) r IH]; intros found v H; cbn [fold_left] in H; [left; exact H|].
  destruct (IH _ _ H) as [E|I]; [|right; right; exact I]. cbn [record] in E.
  destruct (String.eqb x a && String.eqb y b) eqn:EB; [|left; exact E].
  apply andb_true_iff in EB. destruct EB as (EX & EY). apply String.eqb_eq in EX, EY. subst x y.
  injection E as ->. right. left. reflexivity.
Qed.

Lemma fold_flat_map : forall {A B C : Type} (f : C -> B -> C) (g : A -> list B) l c,
  fold_left f (flat_map g l) c = fold_left (fun c x => fold_left f (g x) c) l c.
Proof.
  intros A B C f g. induction l as [|x l IH]; intro c; [reflexivity|]. cbn [flat_map fold_left].
  rewrite fold_left_app. apply IH.
Qed.

Lemma fold_both : forall {A C : Type} (f g : C -> A -> C) l c,
  (forall c x, f c x = g c x) -> fold_left f l c = fold_left g l c.
Proof. intros A C f g l. induction l as [|x l IH]; intros c H; [reflexivity|]. cbn [fold_left]. rewrite H. apply IH. exact H. Qed.

(** The entries [inductance_by_name] writes. *)
Definition upper_entries (m : magnetic) (V : nat -> nat -> Q) : named :=
  flat_map (fun i => flat_map (fun j =>
      (name m i, name m j, V i j) :: (if Nat.eqb i j then [] else [(name m j, name m i, V i j)]))
    (seq i (windings m - i))) (seq 0 (windings m)).

Lemma upper_in : forall m V w, In w (upper_entries m V) <->
  exists i j, (i <= j < windings m)%nat /\ (w = (name m i, name m j, V i j) \/ w = (name m j, name m i, V i j)).
Proof.
  intros m V w. unfold upper_entries. rewrite in_flat_map. split.
  - intros (i & I & W). apply in_flat_map in W. destruct W as (j & J & W). apply in_seq in I, J.
    exists i, j. split; [lia|]. destruct W as [W|W]; [left; symmetry; exact W|].
    destruct (Nat.eqb i j); [destruct W|]. destruct W as [W|[]]. right. symmetry. exact W.
  - intros (i & j & L & W). exists i. split; [apply in_seq; lia|]. apply in_flat_map. exists j.
    split; [apply in_seq; lia|]. destruct W as [W|W]; [left; symmetry; exact W|].
    destruct (Nat.eqb_spec i j) as [->|N]; [left; symmetry; exact W | right; left; symmetry; exact W].
Qed.

Definition distinct_names (m : magnetic) : Prop := NoDup (map g_name (m_windings m)).

Lemma name_inj : forall m i j, distinct_names m -> (i < windings m)%nat -> (j < windings m)%nat ->
  name m i = name m j -> i = j.
Proof.
  intros m i j D I J E. unfold name in E. unfold windings in I, J.
  apply (proj1 (NoDup_nth (map g_name (m_windings m)) EmptyString) D); rewrite ?map_length; assumption.
Qed.

Lemma upper_value : forall m V i j, distinct_names m -> (i < windings m)%nat -> (j < windings m)%nat ->
  value_of (upper_entries m V) (name m i) (name m j) = Some (V (Nat.min i j) (Nat.max i j)).
Proof.
  intros m V i j D I J. rewrite value_of_fold. apply record_unique.
  - intros v' H. apply upper_in in H. destruct H as (i' & j' & L & [W|W]); injection W as W1 W2 ->.
    + apply name_inj in W1; [|assumption|assumption|lia]. apply name_inj in W2; [|assumption|assumption|lia].
      subst i' j'. rewrite Nat.min_l, Nat.max_r by lia. reflexivity.
    + apply name_inj in W1; [|assumption|assumption|lia]. apply name_inj in W2; [|assumption|assumption|lia].
      subst i' j'. rewrite Nat.min_r, Nat.max_l by lia. reflexivity.
  - right. apply upper_in. exists (Nat.min i j), (Nat.max i j). split; [lia|].
    destruct (Nat.le_ge_cases i j); [left; rewrite Nat.min_l, Nat.max_r by lia; reflexivity
                                    |right; rewrite Nat.min_r, Nat.max_l by lia; reflexivity].
Qed.

Lemma upper_symmetric : forall m V a b, value_of (upper_entries m V) a b = value_of (upper_entries m V) b a.
Proof.
  intros m V a b. destruct (String.eqb_spec a b) as [->|NE]; [reflexivity|].
  rewrite !value_of_fold. unfold upper_entries. rewrite !fold_flat_map. apply fold_both. intros c i.
  rewrite !fold_flat_map. apply fold_both. clear c. intros c j.
  destruct (Nat.eqb_spec i j) as [->|N]; cbn [fold_left record].
  - destruct (String.eqb_spec (name m j) a) as [EA|]; destruct (String.eqb_spec (name m j) b) as [EB|]; cbn [andb]; reflexivity.
  - destruct (String.eqb_spec (name m i) a) as [EA|]; destruct (String.eqb_spec (name m i) b) as [EB|];
    destruct (String.eqb_spec (name m j) a) as [EC|]; destruct (String.eqb_spec (name m j) b) as [ED|]; cbn [andb];
    try reflexivity; congruence.
Qed.

(** The entries [leakage_by_name] writes. *)
Lemma full_value : forall m rows (V : nat -> nat -> Q) i j, distinct_names m ->
  (i < windings m)%nat -> (j < windings m)%nat ->
  (forall k, (k < windings m)%nat -> nth k rows [] = map (fun j => (name m k, name m j, V k j)) (seq 0 (windings m))) ->
  List.length rows = windings m ->
  value_of (List.concat rows) (name m i) (name m j) = Some (V i j).
Proof.
  intros m rows V i j D I J R L. rewrite value_of_fold.
  assert (IN : forall w, In w (List.concat rows) <-> exists k l, (k < windings m)%nat /\ (l < windings m)%nat /\ w = (name m k, name m l, V k l)).
  { intro w. rewrite in_concat. split.
    - intros (row & IR & IW). apply In_nth with (d := []) in IR. destruct IR as (k & K & <-). rewrite L in K.
      rewrite (R k K) in IW. apply in_map_iff in IW. destruct IW as (l & <- & IL). apply in_seq in IL. exists k, l. repeat split; lia.
    - intros (k & l & K & LL & ->). exists (nth k rows []). split; [apply nth_In; lia|]. rewrite (R k K).
      apply in_map_iff. exists l. split; [reflexivity | apply in_seq; lia]. }
  apply record_unique.
  - intros v' H. apply IN in H. destruct H as (k & l & K & LL & W). injection W as W1 W2 ->.
    apply name_inj in W1; try assumption. apply name_inj in W2; try assumption. subst. reflexivity.
  - right. apply IN. exists i, j. auto.
Qed.
