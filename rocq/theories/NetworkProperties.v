(** Properties C33, C34, C57, C58 and C59: the per-column reluctance network. *)
From Coq Require Import ZArith QArith Qabs List String Bool Lia Lqa Arith Permutation.
From Verif Require Import Base QAux NetworkModel NetworkProofs.
Import ListNotations.
Open Scope Q_scope.
Open Scope outcome_scope.

(** ** Vocabulary

    [valid N] (NetworkProofs.v): at least one column, positive column
    reluctances, one yoke reluctance per window and none of them negative, and
    an order that lists each column once.  [sum n f] is f 0 + ... + f (n-1).
    [at_ l k] is the k-th element.  [along N l p] is the value of the p-th column
    from left to right. *)

(** Flux that crosses the yoke of window [k]: what the columns left of it, the
    one next to the window included, send into the top plate. *)
Definition yoke_flux (N : network) (flux : list Q) (k : nat) : Q := sum (S k) (along N flux).

(** The magnetomotive force law in window [k], between the columns in places [k]
    and [k + 1]. *)
Definition window_law (N : network) (mmf flux : list Q) (k : nat) : Prop :=
  along N (n_columns N) k * along N flux k + at_ (n_yokes N) k * yoke_flux N flux k
  - along N (n_columns N) (S k) * along N flux (S k)
  == along N mmf k - along N mmf (S k).

(** Turns and column of a winding. *)
Notation turns_of l i := (fst (@nth wound i l (0, O))).
Notation column_of l i := (snd (@nth wound i l (0, O))).

Definition entry (M : list (list Q)) (i j : nat) : Q := at_ (nth i M []) j.

(** Windings on columns the network has. *)
Definition placed (N : network) (l : list wound) : Prop := forall w, In w l -> (snd w < ncol N)%nat.

(** Twice the energy the windings store when they carry [currents]. *)
Definition quadratic (M : list (list Q)) (n : nat) (currents : list Q) : Q :=
  sum n (fun i => at_ currents i * sum n (fun j => entry M i j * at_ currents j)).

(** ** C33 *)

Theorem C33_solver_never_fails : forall N mmf, valid N ->
  exists flux, column_fluxes N mmf = Ok flux /\ List.length flux = List.length (n_columns N).
Proof.
  intros N mmf V. destruct (fluxes_laws N mmf V) as (f & E & L & _). exists f. split; [exact E | exact L].
Qed.

Theorem C33_flux_conserved : forall N mmf flux, valid N -> (2 <= List.length (n_columns N))%nat ->
  column_fluxes N mmf = Ok flux -> sum (List.length (n_columns N)) (at_ flux) == 0.
Proof.
  intros N mmf flux V L E. destruct (fluxes_obey N mmf flux V E) as (_ & _ & C).
  destruct (C L) as (C1 & _). rewrite <- (sum_along N (at_ flux) V).
  unfold ncol in C1. replace (S (List.length (n_columns N) - 1)) with (List.length (n_columns N)) in C1 by lia.
  exact C1.
Qed.

Theorem C33_window_law : forall N mmf flux k, valid N -> column_fluxes N mmf = Ok flux ->
  (S k < List.length (n_columns N))%nat -> window_law N mmf flux k.
Proof.
  intros N mmf flux k V E K. destruct (fluxes_obey N mmf flux V E) as (_ & _ & C).
  destruct (C ltac:(unfold ncol; lia)) as (_ & C2). apply C2. unfold ncol. lia.
Qed.

(** A closed core without windows, a toroid: all the force on its reluctance. *)
Theorem C33_single_column : forall N mmf flux, valid N -> List.length (n_columns N) = 1%nat ->
  column_fluxes N mmf = Ok flux -> at_ (n_columns N) 0 * at_ flux 0 == at_ mmf 0.
Proof. intros N mmf flux V L E. destruct (fluxes_obey N mmf flux V E) as (_ & C & _). exact (C L). Qed.

(** Nothing else satisfies the laws. *)
Theorem C33_unique : forall N mmf flux other, valid N -> (2 <= List.length (n_columns N))%nat ->
  column_fluxes N mmf = Ok flux ->
  List.length other = List.length (n_columns N) ->
  sum (List.length (n_columns N)) (at_ other) == 0 ->
  (forall k, (S k < List.length (n_columns N))%nat -> window_law N mmf other k) ->
  forall c, (c < List.length (n_columns N))%nat -> at_ other c == at_ flux c.
Proof.
  intros N mmf flux other V L E LO SO WO c C.
  apply (laws_unique N mmf other flux c V); [|exact (fluxes_obey N mmf flux V E)|exact C].
  split; [exact LO|]. split; [unfold ncol; lia|]. intros _. unfold ncol. split.
  - replace (S (List.length (n_columns N) - 1)) with (List.length (n_columns N)) by lia.
    rewrite <- SO. exact (sum_along N (at_ other) V).
  - intros k K. apply WO. lia.
Qed.

Theorem C33_linear : forall N f g h a x y z, valid N ->
  (forall c, (c < List.length (n_columns N))%nat -> at_ h c == at_ f c + a * at_ g c) ->
  column_fluxes N f = Ok x -> column_fluxes N g = Ok y -> column_fluxes N h = Ok z ->
  forall c, (c < List.length (n_columns N))%nat -> at_ z c == at_ x c + a * at_ y c.
Proof.
  intros N f g h a x y z V H X Y Z c C.
  pose proof (laws_combine N f x g y a V (fluxes_obey _ _ _ V X) (fluxes_obey _ _ _ V Y)) as L.
  assert (E : at_ z c == at_ (combine_lists (ncol N) x a y) c).
  { apply (laws_unique N h z _ c V (fluxes_obey _ _ _ V Z)); [|exact C].
    eapply laws_ext; [exact V| |exact L]. intros k K. unfold combine_lists. rewrite at_map_seq by exact K.
    symmetry. apply H. exact K. }
  rewrite E. unfold combine_lists. rewrite at_map_seq by exact C. reflexivity.
Qed.

(** The same core described with its columns in another order. *)
Theorem C33_order_of_columns : forall N N' mmf mmf' flux flux' (rename : nat -> nat), valid N -> valid N' ->
  List.length (n_columns N') = List.length (n_columns N) -> n_yokes N' = n_yokes N ->
  (forall p, (p < List.length (n_columns N))%nat -> nth p (n_order N') O = rename (nth p (n_order N) O)) ->
  (forall c, (c < List.length (n_columns N))%nat ->
     at_ (n_columns N') (rename c) == at_ (n_columns N) c /\ at_ mmf' (rename c) == at_ mmf c) ->
  column_fluxes N mmf = Ok flux -> column_fluxes N' mmf' = Ok flux' ->
  forall c, (c < List.length (n_columns N))%nat -> at_ flux' (rename c) == at_ flux c.
Proof.
  intros N N' mmf mmf' flux flux' rename V V' LN YK RO RV E E' c C.
  destruct (fluxes_obey _ _ _ V E) as (L0 & L1 & L2).
  destruct (fluxes_obey _ _ _ V' E') as (M0 & M1 & M2).
  destruct (order_position N c V C) as (p & P & EP).
  destruct (Nat.eq_dec (List.length (n_columns N)) 1) as [E1|N1].
  - assert (CZ : c = O) by lia. assert (PZ : p = O) by lia. rewrite PZ in *. rewrite CZ in *. clear PZ CZ.
    pose proof (RO O P) as R0. rewrite EP in R0.
    pose proof (order_single N' V' ltac:(unfold ncol; lia)) as R1. rewrite <- R0, R1.
    specialize (L1 ltac:(unfold ncol; lia)). specialize (M1 ltac:(unfold ncol; lia)).
    destruct (RV O P) as (RV1 & RV2). rewrite <- R0, R1 in RV1, RV2.
    rewrite RV1, RV2, <- L1 in M1.
    assert (PR : 0 < at_ (n_columns N) 0) by (apply (v_legs N V); apply at_In; exact P).
    assert (Z : at_ (n_columns N) 0 * (at_ flux' 0 - at_ flux 0) == 0) by lra.
    destruct (Qeq_dec (at_ flux' 0) (at_ flux 0)) as [|NE]; [assumption|]. exfalso.
    apply Qmult_integral in Z. destruct Z; lra.
  - specialize (L2 ltac:(unfold ncol; lia)). specialize (M2 ltac:(unfold ncol; lia)).
    assert (NC : ncol N' = ncol N) by exact LN. rewrite NC in M2.
    assert (LG : forall k, (k <= ncol N - 1)%nat -> 0 < along N (n_columns N) k)
      by (intros; apply legs_positive; [exact V | unfold ncol in *; lia]).
    assert (YN : forall k, (k < ncol N - 1)%nat -> 0 <= at_ (n_yokes N) k)
      by (intros; apply yokes_nonneg; assumption).
    assert (M3 : circuit (ncol N - 1) (along N (n_columns N)) (at_ (n_yokes N)) (along N mmf) (along N' flux')).
    { eapply circuit_ext; [| | | |exact M2]; intros k K; unfold along; try reflexivity.
      - rewrite RO by (unfold ncol in *; lia). apply RV. apply (order_range N k V). unfold ncol in *; lia.
      - rewrite YK. reflexivity.
      - rewrite RO by (unfold ncol in *; lia). apply RV. apply (order_range N k V). unfold ncol in *; lia. }
    pose proof (circuit_unique _ _ _ _ _ _ LG YN M3 L2 p ltac:(unfold ncol; lia)) as U.
    unfold along in U. rewrite EP in U. rewrite RO in U by exact P. rewrite EP in U. exact U.
Qed.

(** The flux densities are the fluxes over the areas. *)
Theorem C33_flux_density : forall N cols l currents densities, valid N ->
  List.length cols = List.length (n_columns N) -> Forall (fun c => 0 < c_area c) cols ->
  flux_densities N cols l currents = Ok densities ->
  exists flux, fluxes_of_currents N l currents = Ok flux /\ List.length densities = List.length cols /\
    forall k c, nth_error cols k = Some c -> at_ densities k * c_area c == at_ flux k.
Proof.
  intros N cols l currents densities V LC AP H. unfold flux_densities in H.
  destruct (fluxes_of_currents N l currents) as [f| | |] eqn:F; try discriminate. cbn [bind] in H.
  injection H as <-. exists f. split; [reflexivity|].
  assert (LF : List.length f = List.length (n_columns N)).
  { unfold fluxes_of_currents in F. destruct (negb _); [discriminate|].
    exact (proj1 (fluxes_obey _ _ _ V F)). }
  split; [rewrite map_length, seq_length; congruence|]. intros k c E.
  assert (K : (k < List.length cols)%nat) by (apply nth_error_Some; congruence).
  rewrite at_map_seq by congruence. unfold column_at. rewrite (nth_error_nth _ _ no_column E).
  rewrite Forall_forall in AP. pose proof (AP c (nth_error_In _ _ E)). field. lra.
Qed.

(** ** C34 *)

Lemma map_columns_spec : forall N l, valid N ->
  exists fs, map_columns N l = Ok fs /\ List.length fs = List.length l /\
    forall j, (j < List.length l)%nat ->
      laws N (unit_force (ncol N) (column_of l j) (turns_of l j)) (nth j fs []).
Proof.
  intros N l V. induction l as [|(t & c) l IH].
  - exists []. split; [reflexivity|]. split; [reflexivity|]. cbn [List.length]. lia.
  - destruct IH as (fs & E & L & IH). cbn [map_columns].
    destruct (fluxes_laws N (unit_force (ncol N) c t) V) as (f & EF & LF).
    unfold ncol in EF at 1. rewrite EF. cbn [bind]. rewrite E. cbn [bind].
    exists (f :: fs). split; [reflexivity|]. split; [cbn [List.length]; lia|].
    intros [|j] J; [exact LF|]. cbn [nth]. apply IH. cbn [List.length] in J. lia.
Qed.

Lemma matrix_spec : forall N l, valid N -> placed N l ->
  exists M, inductance_matrix N l = Ok M /\ List.length M = List.length l /\
    exists fs, forall j, (j < List.length l)%nat ->
      laws N (unit_force (ncol N) (column_of l j) (turns_of l j)) (nth j fs []) /\
      (column_of l j < ncol N)%nat /\
      forall i, (i < List.length l)%nat ->
        List.length (nth i M []) = List.length l /\
        entry M i j = turns_of l i * at_ (nth j fs []) (column_of l i).
Proof.
  intros N l V P. destruct (map_columns_spec N l V) as (fs & E & L & S).
  exists (map (fun w => map (fun f => fst w * at_ f (snd w)) fs) l).
  unfold inductance_matrix. rewrite E. cbn [bind]. split; [reflexivity|]. split; [apply map_length|].
  exists fs. intros j J. split; [apply S; exact J|]. split; [apply P; apply nth_In; exact J|].
  intros i I. unfold entry.
  rewrite (nth_indep _ [] (map (fun f => fst (0, O) * at_ f (snd (0%Q, O))) fs)) by (rewrite map_length; exact I).
  rewrite (map_nth (fun w : wound => map (fun f => fst w * at_ f (snd w)) fs)).
  split; [rewrite map_length; exact L|].
  unfold at_ at 1. rewrite (nth_indep _ 0 (turns_of l i * at_ [] (column_of l i)))
    by (rewrite map_length; lia).
  rewrite (map_nth (fun f => turns_of l i * at_ f (column_of l i))). reflexivity.
Qed.

(** Every core and assignment of windings has its matrix, square. *)
Theorem C34_total : forall N l, valid N -> placed N l ->
  exists M, inductance_matrix N l = Ok M /\ List.length M = List.length l /\
    forall i, (i < List.length l)%nat -> List.length (nth i M []) = List.length l.
Proof.
  intros N l V P. destruct (matrix_spec N l V P) as (M & E & L & fs & S). exists M.
  split; [exact E|]. split; [exact L|]. intros i I. destruct (S i I) as (_ & _ & T). exact (proj1 (T i I)).
Qed.

Theorem C34_symmetric : forall N l M i j, valid N -> placed N l -> inductance_matrix N l = Ok M ->
  (i < List.length l)%nat -> (j < List.length l)%nat -> entry M i j == entry M j i.
Proof.
  intros N l M i j V P E I J. destruct (matrix_spec N l V P) as (M' & E' & L & fs & S).
  assert (M' = M) by congruence. subst M'.
  destruct (S i I) as (LI & RI & TI). destruct (S j J) as (LJ & RJ & TJ).
  rewrite (proj2 (TJ i I)), (proj2 (TI j J)).
  rewrite <- (paired_unit N _ _ (nth j fs []) RI). rewrite <- (paired_unit N _ _ (nth i fs []) RJ).
  rewrite (paired_cross N _ _ _ _ V LI LJ). rewrite (paired_cross N _ _ _ _ V LJ LI). apply cross_sym.
Qed.

Lemma add_forces_paired : forall N l currents mmf g, placed N l -> List.length mmf = ncol N ->
  List.length currents = List.length l ->
  sum (ncol N) (fun c => at_ (add_forces mmf l currents) c * g c)
  == sum (ncol N) (fun c => at_ mmf c * g c)
   + sum (List.length l) (fun j => turns_of l j * at_ currents j * g (column_of l j)).
Proof.
  intros N. induction l as [|(t & c) l IH]; intros [|i currents] mmf g P LM LC; cbn [add_forces]; try discriminate.
  - cbn [sum List.length]. lra.
  - rewrite IH; [|intros w W; apply P; right; exact W | rewrite set_nth_length; exact LM | cbn in LC; lia].
    assert (C : (c < ncol N)%nat) by exact (P (t, c) (or_introl eq_refl)).
    assert (E1 : sum (ncol N) (fun k => at_ (set_nth mmf c (at_ mmf c + t * i)) k * g k)
      == sum (ncol N) (fun k => at_ mmf k * g k) + t * i * g c).
    { rewrite <- (sum_update (ncol N) (fun k => at_ mmf k * g k) c (t * i * g c) C).
      apply sum_ext. intros k K. destruct (Nat.eqb_spec k c) as [->|NE].
      - rewrite set_nth_same by lia. ring.
      - rewrite set_nth_other by exact NE. ring. }
    rewrite E1. cbn [List.length].
    assert (SH : forall n f, sum (S n) f == f O + sum n (fun k => f (S k))).
    { induction n as [|n IHn]; intro f; [cbn [sum]; lra|].
      change (sum (S (S n)) f) with (sum (S n) f + f (S n)). rewrite IHn. cbn [sum]. lra. }
    rewrite SH. cbn [nth fst snd]. unfold at_ at 4. cbn [nth].
    change (fun k => turns_of l k * at_ (i :: currents) (S k) * g (column_of l k))
      with (fun k => turns_of l k * at_ currents k * g (column_of l k)). lra.
Qed.

(** The flux that links winding [i] when the windings carry the currents is
    the one the matrix predicts. *)
Theorem C34_flux_linkage : forall N l M currents flux i, valid N -> placed N l ->
  inductance_matrix N l = Ok M -> fluxes_of_currents N l currents = Ok flux -> (i < List.length l)%nat ->
  turns_of l i * at_ flux (column_of l i)
  == sum (List.length l) (fun j => entry M i j * at_ currents j).
Proof.
  intros N l M currents flux i V P E F I. unfold fluxes_of_currents in F.
  destruct (Nat.eqb_spec (List.length currents) (List.length l)) as [LC|]; cbn [negb] in F; [|discriminate].
  pose proof (fluxes_obey _ _ _ V F) as LF.
  destruct (matrix_spec N l V P) as (M' & E' & L & fs & S). assert (M' = M) by congruence. subst M'.
  destruct (S i I) as (LI & RI & TI).
  rewrite <- (paired_unit N _ _ flux RI).
  rewrite (paired_cross N _ _ _ _ V LI LF), cross_sym, <- (paired_cross N _ _ _ _ V LF LI).
  unfold paired. rewrite (add_forces_paired N l currents (repeat 0 (List.length (n_columns N))) _ P (repeat_length _ _) LC).
  rewrite sum_zero by (intros; rewrite at_repeat; lra). rewrite Qplus_0_l.
  apply sum_ext. intros j J. rewrite (C34_symmetric N l M i j V P E I J), (proj2 (TI j J)). ring.
Qed.

(** Each winding needs a current, and then there is an answer. *)
Theorem C34_currents_total : forall N l currents, valid N -> List.length currents = List.length l ->
  exists flux, fluxes_of_currents N l currents = Ok flux.
Proof.
  intros N l currents V L. unfold fluxes_of_currents. rewrite L, Nat.eqb_refl. cbn [negb].
  destruct (C33_solver_never_fails N (add_forces (repeat 0 (List.length (n_columns N))) l currents) V) as (f & E & _).
  exists f. exact E.
Qed.

Theorem C34_passive : forall N l M currents, valid N -> placed N l -> inductance_matrix N l = Ok M ->
  List.length currents = List.length l -> 0 <= quadratic M (List.length l) currents.
Proof.
  intros N l M currents V P E LC. destruct (C34_currents_total N l currents V LC) as (flux & F).
  unfold quadratic.
  assert (Q : sum (List.length l) (fun i => at_ currents i * sum (List.length l) (fun j => entry M i j * at_ currents j))
    == sum (List.length l) (fun i => turns_of l i * at_ currents i * at_ flux (column_of l i))).
  { apply sum_ext. intros i I. rewrite <- (C34_flux_linkage N l M currents flux i V P E F I). ring. }
  rewrite Q.
  pose proof F as F'. unfold fluxes_of_currents in F'.
  destruct (Nat.eqb_spec (List.length currents) (List.length l)); cbn [negb] in F'; [|discriminate].
  pose proof (fluxes_obey _ _ _ V F') as LF.
  pose proof (add_forces_paired N l currents (repeat 0 (List.length (n_columns N))) (at_ flux) P (repeat_length _ _) LC) as AF.
  rewrite (sum_zero (ncol N) (fun c => at_ (repeat 0 (List.length (n_columns N))) c * at_ flux c)) in AF
    by (intros; rewrite at_repeat; lra).
  rewrite Qplus_0_l in AF. rewrite <- AF.
  pose proof (paired_cross N _ _ _ _ V LF LF) as PC. unfold paired in PC. rewrite PC. apply cross_nonneg. exact V.
Qed.

(** Self-inductance: turns squared over the reluctance the winding's column
    shows, which is positive. *)
Theorem C34_diagonal : forall N l M i response, valid N -> placed N l -> inductance_matrix N l = Ok M ->
  (i < List.length l)%nat ->
  let turns := turns_of l i in
  let c := column_of l i in
  column_fluxes N (unit_force (List.length (n_columns N)) c 1) = Ok response ->
  let driving := 1 / at_ response c in
  0 < driving /\ entry M i i == turns * turns / driving.
Proof.
  intros N l M i response V P E I turns c R driving.
  destruct (matrix_spec N l V P) as (M' & E' & L & fs & S). assert (M' = M) by congruence. subst M'.
  destruct (S i I) as (LI & RI & TI).
  assert (LR : laws N (unit_force (ncol N) c 1) response) by exact (fluxes_obey _ _ _ V R).
  pose proof (response_positive N c response V RI LR) as RP.
  split; [unfold driving; apply Qlt_shift_div_l; lra|].
  rewrite (proj2 (TI i I)). fold turns. fold c.
  pose proof (laws_scale N _ _ turns V LR) as LS.
  assert (U : at_ (nth i fs []) c == at_ (map (fun k => turns * at_ response k) (seq 0 (ncol N))) c).
  { apply (laws_unique N _ _ _ c V LI); [|exact RI]. eapply laws_ext; [exact V| |exact LS].
    intros k K. rewrite at_map_seq by exact K. rewrite !at_unit by exact RI. fold turns. fold c.
    destruct (Nat.eqb k c); lra. }
  rewrite U. rewrite at_map_seq by exact RI. unfold driving. field. lra.
Qed.

(** The coupling of two windings is one at most: M^2 <= L1 L2. *)
Theorem C34_coupling : forall N l M i j, valid N -> placed N l -> inductance_matrix N l = Ok M ->
  (i < List.length l)%nat -> (j < List.length l)%nat ->
  entry M i j * entry M i j <= entry M i i * entry M j j.
Proof.
  intros N l M i j V P E I J. destruct (matrix_spec N l V P) as (M' & E' & L & fs & S).
  assert (M' = M) by congruence. subst M'.
  destruct (S i I) as (LI & RI & TI). destruct (S j J) as (LJ & RJ & TJ).
  rewrite (proj2 (TJ i I)), (proj2 (TI i I)), (proj2 (TJ j J)).
  rewrite <- (paired_unit N _ _ (nth j fs []) RI), <- (paired_unit N _ _ (nth i fs []) RI).
  rewrite <- (paired_unit N _ _ (nth j fs []) RJ).
  rewrite (paired_cross N _ _ _ _ V LI LJ), (paired_cross N _ _ _ _ V LI LI), (paired_cross N _ _ _ _ V LJ LJ).
  set (x := nth i fs []) in *. set (y := nth j fs []) in *.
  assert (Q : forall a, 0 <= cross N x x + 2 * a * cross N x y + a * a * cross N y y).
  { intro a. pose proof (laws_combine N _ x _ y a V LI LJ) as LC.
    pose proof (cross_nonneg N (combine_lists (ncol N) x a y) V) as NN.
    rewrite <- (paired_cross N _ _ _ _ V LC LC) in NN. unfold paired in NN.
    set (fi := unit_force (ncol N) (column_of l i) (turns_of l i)) in *.
    set (fj := unit_force (ncol N) (column_of l j) (turns_of l j)) in *.
    assert (EX : sum (ncol N) (fun c => at_ (combine_lists (ncol N) fi a fj) c * at_ (combine_lists (ncol N) x a y) c)
      == paired N fi x + a * paired N fi y + (a * paired N fj x + a * (a * paired N fj y))).
    { unfold paired. rewrite <- !sum_scale. rewrite <- !sum_plus. apply sum_ext. intros c C.
      unfold combine_lists. rewrite !at_map_seq by exact C. ring. }
    rewrite EX in NN. rewrite (paired_cross N _ _ _ _ V LI LI), (paired_cross N _ _ _ _ V LI LJ),
      (paired_cross N _ _ _ _ V LJ LI), (paired_cross N _ _ _ _ V LJ LJ) in NN.
    rewrite (cross_sym N y x) in NN. lra. }
  pose proof (cross_nonneg N x V) as NX. pose proof (cross_nonneg N y V) as NY.
  set (p := cross N x x) in *. set (q := cross N x y) in *. set (r := cross N y y) in *. clearbody p q r.
  destruct (Qlt_le_dec 0 r) as [RP|RZ].
  - specialize (Q (- q / r)).
    assert (EQ : p + 2 * (- q / r) * q + - q / r * (- q / r) * r == (p * r - q * q) / r) by (field; lra).
    rewrite EQ in Q. assert (0 <= (p * r - q * q) / r * r) by nra.
    assert (EQ2 : (p * r - q * q) / r * r == p * r - q * q) by (field; lra). lra.
  - assert (RE : r == 0) by lra.
    destruct (Qeq_dec q 0) as [QZ|QN]; [rewrite QZ, RE; lra|]. exfalso.
    specialize (Q (- (p + 1) / (2 * q))). rewrite RE in Q.
    assert (EQ : p + 2 * (- (p + 1) / (2 * q)) * q + - (p + 1) / (2 * q) * (- (p + 1) / (2 * q)) * 0 == -1) by (field; lra).
    lra.
Qed.

(** ** C57: the network reproduces the lumped core *)

(** Each gap belongs to the column closest to it in the plane of the columns. *)
Theorem C57_gap_on_closest_column : forall K x z c, k_columns K <> [] ->
  In c (k_columns K) ->
  let nearest := column_at (k_columns K) (closest_column K x z) in
  In nearest (k_columns K) /\
  Qabs (c_x nearest - x) + Qabs (c_z nearest - z) <= Qabs (c_x c - x) + Qabs (c_z c - z).
Proof.
  intros K x z c NE I nearest. pose proof (closest_column_range K x z NE) as R.
  split; [unfold nearest, column_at; apply nth_In; exact R|].
  unfold nearest, closest_column in *. pose proof (closest_from_spec (k_columns K) 0 x z None) as S.
  destruct (closest_from 0 (k_columns K) x z None) as [(j & d)|]; [|destruct S; congruence].
  destruct S as ([S|(S & D)] & S2 & _); [discriminate|]. rewrite Nat.sub_0_r in D.
  unfold column_at. rewrite <- D. destruct (In_nth _ _ no_column I) as (i & IL & <-). apply S2. exact IL.
Qed.

(** The gaps raise the reluctance of their own column only: two sets of gap
    reluctances differ, on each column, by what is on it. *)
Theorem C57_gaps_in_series : forall K u gaps gaps' N N' c, 
  construct K (Some u) gaps = Ok N -> construct K (Some u) gaps' = Ok N' ->
  Forall (fun c => 0 < c_height c) (k_columns K) -> (c < List.length (k_columns K))%nat ->
  n_yokes N' = n_yokes N /\ n_order N' = n_order N /\
  at_ (n_columns N') c - at_ (n_columns N) c ==
  fold_right Qplus 0 (map (fun p : (Q * Q) * (Q * Q) =>
      if Nat.eqb (closest_column K (fst (fst p)) (snd (fst p))) c then snd (snd p) - fst (snd p) else 0)
    (combine (k_gaps K) (combine gaps gaps'))).
Proof.
  intros K u gaps gaps' N N' c H H' HP C. unfold construct in H, H'.
  destruct (Qle_bool u 0); [discriminate|].
  destruct (main_column K) as [main| | |] eqn:MC; try discriminate. cbn [bind] in H, H'.
  assert (P : exists legs yokes, (if Nat.eqb (List.length (k_columns K)) 1 then Ok ([u], []) else calibrated K main u)
                                 = Ok (legs, yokes) /\ List.length legs = List.length (k_columns K)).
  { destruct (Nat.eqb_spec (List.length (k_columns K)) 1) as [L1|L1].
    - exists [u], []. split; [reflexivity | cbn; congruence].
    - destruct (calibrated K main u) as [(legs, yokes)| | |] eqn:CB; try discriminate.
      exists legs, yokes. split; [reflexivity|]. apply calibrated_inv in CB.
      destruct CB as (wh & f & _ & _ & _ & _ & -> & _). unfold raw_legs. rewrite !map_length. reflexivity. }
  destruct P as (legs & yokes & P & LL). rewrite P in H, H'. cbn [bind fst snd] in H, H'.
  destruct (Nat.eqb_spec (List.length (k_gaps K)) (List.length gaps)) as [LG|]; cbn [negb] in H; [|discriminate].
  destruct (Nat.eqb_spec (List.length (k_gaps K)) (List.length gaps')) as [LG'|]; cbn [negb] in H'; [|discriminate].
  injection H as <-. injection H' as <-. cbn [n_columns n_yokes n_order].
  split; [reflexivity|]. split; [reflexivity|]. rewrite !add_gaps_at by congruence.
  assert (G : forall gs a b, List.length gs = List.length a -> List.length gs = List.length b ->
    gap_total K c gs b - gap_total K c gs a ==
    fold_right Qplus 0 (map (fun p : (Q * Q) * (Q * Q) =>
      if Nat.eqb (closest_column K (fst (fst p)) (snd (fst p))) c then snd (snd p) - fst (snd p) else 0)
      (combine gs (combine a b)))).
  { induction gs as [|(x, z) gs IH]; intros [|r a] [|r' b] LA LB; try discriminate; cbn [gap_total combine map fold_right fst snd].
    - lra.
    - rewrite <- (IH a b) by (cbn in *; lia). destruct (Nat.eqb (closest_column K x z) c); ring. }
  rewrite <- (G (k_gaps K) gaps gaps' LG LG'). lra.
Qed.

(** The driving reluctance of the main column is the reluctance given for the
    core plus the gaps on that column, when no gap is elsewhere. *)
Theorem C57_calibrated : forall K u gaps N flux,
  construct K (Some u) gaps = Ok N -> Forall (fun c => 0 < c_height c) (k_columns K) ->
  Forall (fun r => 0 <= r) gaps ->
  (forall x z, In (x, z) (k_gaps K) -> closest_column K x z = n_main N) ->
  column_fluxes N (unit_force (List.length (n_columns N)) (n_main N) 1) = Ok flux ->
  at_ flux (n_main N) == 1 / (u + fold_right Qplus 0 gaps).
Proof.
  intros K u gaps N flux H HP GP GM F.
  destruct (construct_valid K u gaps N H HP GP) as (V & NC & MR & MC).
  destruct (construct_inv K u gaps N H HP) as (U & main & legs & yokes & x & MC' & V0 & NC0 & LW & XM & LG & EN).
  assert (main = n_main N) by congruence. subst main.
  set (N0 := mk_network legs yokes (order_of K) (n_main N)) in *.
  set (g := fold_right Qplus 0 gaps).
  assert (GT : forall gs rs c, List.length gs = List.length rs ->
      (forall x z, In (x, z) gs -> closest_column K x z = n_main N) ->
      gap_total K c gs rs == if Nat.eqb c (n_main N) then fold_right Qplus 0 rs else 0).
  { clear. induction gs as [|(x, z) gs IH]; intros [|r rs] c L G; try discriminate; cbn [gap_total fold_right].
    - destruct (Nat.eqb c (n_main N)); reflexivity.
    - rewrite IH by (cbn in L; try lia; intros; apply G; right; assumption).
      rewrite (G x z) by (left; reflexivity). rewrite (Nat.eqb_sym (n_main N) c).
      destruct (Nat.eqb c (n_main N)); lra. }
  assert (G0 : 0 <= g).
  { unfold g. clear - GP. induction gaps as [|r rs IH]; cbn [fold_right]; [lra|]. inversion GP; subst.
    pose proof (IH H2). lra. }
  assert (LL : List.length legs = List.length (k_columns K)) by exact NC0.
  assert (NCN : ncol N = ncol N0) by congruence.
  assert (T : (1 / (1 + g * at_ x (n_main N))) * (1 + g * at_ x (n_main N)) == 1).
  { rewrite XM. assert (0 <= g * (1 / u)) by (apply Qmult_le_0_compat; [exact G0 | apply Qle_shift_div_l; lra]).
    set (w := g * (1 / u)) in *. field. lra. }
  assert (LS : laws N (unit_force (ncol N0) (n_main N) 1)
      (map (fun c => 1 / (1 + g * at_ x (n_main N)) * at_ x c) (seq 0 (ncol N0)))).
  { apply (laws_series N0 N (n_main N) g); try assumption.
    - rewrite <- NCN. exact MR.
    - rewrite EN. reflexivity.
    - intros c C. rewrite EN. cbn [n_columns N0]. rewrite add_gaps_at; [|exact LL|exact C].
      rewrite (GT _ _ c LG GM). reflexivity.
    - intros k KK. rewrite EN. reflexivity. }
  rewrite <- NCN in LS.
  assert (LF : laws N (unit_force (ncol N) (n_main N) 1) flux) by exact (fluxes_obey _ _ _ V F).
  rewrite (laws_unique N _ flux _ (n_main N) V LF LS MR).
  rewrite at_map_seq by exact MR. rewrite XM.
  assert (D : 1 + g * (1 / u) == (u + g) / u) by (field; lra).
  rewrite D. field. split; lra.
Qed.

(** So windings all on the main column are coupled ideally, by the turns and the
    one lumped reluctance. *)
Theorem C57_main_column_windings : forall K u gaps N l M i j,
  construct K (Some u) gaps = Ok N -> Forall (fun c => 0 < c_height c) (k_columns K) ->
  Forall (fun r => 0 <= r) gaps ->
  (forall x z, In (x, z) (k_gaps K) -> closest_column K x z = n_main N) ->
  (forall w, In w l -> snd w = n_main N) -> inductance_matrix N l = Ok M ->
  (i < List.length l)%nat -> (j < List.length l)%nat ->
  entry M i j == turns_of l i * turns_of l j / (u + fold_right Qplus 0 gaps).
Proof.
  intros K u gaps N l M i j H HP GP GM WM E I J.
  destruct (construct_valid K u gaps N H HP GP) as (V & NC & MR & MC).
  assert (P : placed N l) by (intros w W; rewrite (WM w W); exact MR).
  destruct (matrix_spec N l V P) as (M' & E' & L & fs & S). assert (M' = M) by congruence. subst M'.
  destruct (S j J) as (LJ & RJ & TJ). rewrite (proj2 (TJ i I)).
  assert (CI : column_of l i = n_main N) by (apply WM; apply nth_In; exact I).
  assert (CJ : column_of l j = n_main N) by (apply WM; apply nth_In; exact J).
  rewrite CI. rewrite CJ in LJ.
  destruct (C33_solver_never_fails N (unit_force (List.length (n_columns N)) (n_main N) 1) V) as (r & ER & _).
  pose proof (C57_calibrated K u gaps N r H HP GP GM ER) as CB.
  pose proof (laws_scale N _ _ (turns_of l j) V (fluxes_obey _ _ _ V ER)) as LS.
  assert (U : at_ (nth j fs []) (n_main N) == at_ (map (fun k => turns_of l j * at_ r k) (seq 0 (ncol N))) (n_main N)).
  { apply (laws_unique N _ _ _ _ V LJ); [|exact MR]. eapply laws_ext; [exact V| |exact LS].
    intros k K0. rewrite at_map_seq by exact K0. unfold ncol in *. rewrite !at_unit by exact MR.
    destruct (Nat.eqb k (n_main N)); lra. }
  rewrite U, at_map_seq by exact MR. rewrite CB.
  assert (0 < u) by (apply (construct_inv K u gaps N H HP)).
  assert (0 <= fold_right Qplus 0 gaps).
  { clear - GP. induction gaps as [|r rs IH]; cbn [fold_right]; [lra|]. inversion GP; subst. pose proof (IH H2). lra. }
  set (g := fold_right Qplus 0 gaps) in *. field. lra.
Qed.

(** ** C58: more reluctance never gives more inductance *)

Lemma construct_harder : forall K u u' gaps gaps' N N',
  construct K (Some u) gaps = Ok N -> construct K (Some u') gaps' = Ok N' ->
  Forall (fun c => 0 < c_height c) (k_columns K) -> u <= u' -> Forall2 Qle gaps gaps' ->
  harder N N'.
Proof.
  intros K u u' gaps gaps' N N' H H' HP UU GG. unfold construct in H, H'.
  destruct (Qle_bool u 0) eqn:UP; [discriminate|]. destruct (Qle_bool u' 0) eqn:UP'; [discriminate|].
  destruct (main_column K) as [main| | |] eqn:MC; try discriminate. cbn [bind] in H, H'.
  pose proof (main_column_range K main MC) as MR.
  assert (NE : k_columns K <> []) by (intro E; rewrite E in MR; cbn in MR; lia).
  destruct (Nat.eqb_spec (List.length (k_columns K)) 1) as [L1|L1].
  - cbn [bind fst snd] in H, H'.
    destruct (negb _) in H; [discriminate|]. destruct (negb _) in H'; [discriminate|].
    injection H as <-. injection H' as <-. constructor; unfold ncol; cbn [n_columns n_yokes n_order]; try reflexivity.
    + rewrite !add_gaps_length. reflexivity.
    + intros c C. rewrite add_gaps_length in C. rewrite !add_gaps_at by (cbn in *; congruence || assumption).
      pose proof (gap_total_mono K c (k_gaps K) gaps gaps' GG). cbn in C. assert (c = O) by lia. subst c.
      change (u + gap_total K 0 (k_gaps K) gaps <= u' + gap_total K 0 (k_gaps K) gaps'). lra.
    + intros k KK. rewrite add_gaps_length in KK. cbn in KK. lia.
  - destruct (calibrated K main u) as [(legs, yokes)| | |] eqn:CB; try discriminate.
    destruct (calibrated K main u') as [(legs', yokes')| | |] eqn:CB'; try discriminate.
    cbn [bind fst snd] in H, H'.
    destruct (negb _) in H; [discriminate|]. destruct (negb _) in H'; [discriminate|].
    injection H as <-. injection H' as <-.
    apply calibrated_inv in CB. destruct CB as (wh & f & PA & WH & YP & CF & -> & ->).
    apply calibrated_inv in CB'. destruct CB' as (wh' & f' & _ & WH' & _ & CF' & -> & ->).
    assert (wh' = wh) by congruence. subst wh'. assert (f' = f) by congruence. subst f'.
    pose proof (raw_valid K main wh NE HP PA YP) as V.
    assert (NC : ncol (raw K main wh) = List.length (k_columns K)).
    { unfold ncol, raw, raw_legs. cbn [n_columns]. apply map_length. }
    rewrite <- NC in CF.
    pose proof (response_positive (raw K main wh) main f V ltac:(lia) (fluxes_obey _ _ _ V CF)) as FP.
    assert (SS : u / (1 / at_ f main) <= u' / (1 / at_ f main)).
    { assert (E1 : u / (1 / at_ f main) == u * at_ f main) by (field; lra).
      assert (E2 : u' / (1 / at_ f main) == u' * at_ f main) by (field; lra). rewrite E1, E2. nra. }
    set (s := u / (1 / at_ f main)) in *. set (s' := u' / (1 / at_ f main)) in *.
    assert (LL : forall s, List.length (map (fun r => s * r) (raw_legs K)) = List.length (k_columns K)).
    { intro. unfold raw_legs. rewrite !map_length. reflexivity. }
    constructor; unfold ncol; cbn [n_columns n_yokes n_order]; try reflexivity.
    + rewrite !add_gaps_length, !LL. reflexivity.
    + intros c C. rewrite add_gaps_length, LL in C.
      rewrite !add_gaps_at by (rewrite ?LL; congruence || assumption).
      pose proof (gap_total_mono K c (k_gaps K) gaps gaps' GG).
      assert (CR : (c < List.length (raw_legs K))%nat) by (unfold raw_legs; rewrite map_length; exact C).
      rewrite !at_map by exact CR. pose proof (v_legs _ V (at_ (raw_legs K) c) (at_In _ _ CR)). nra.
    + intros k KK. rewrite add_gaps_length, LL in KK.
      destruct (v_yokes _ V) as (YL & YN). cbn [raw n_columns n_yokes] in YL, YN.
      assert (KR : (k < List.length (raw_yokes K main wh))%nat).
      { unfold raw_yokes. rewrite map_length, seq_length. exact KK. }
      rewrite !at_map by exact KR. pose proof (YN _ (at_In _ _ KR)). nra.
Qed.

(** A self-inductance does not grow when a gap is widened (its reluctance grows)
    or the core's reluctance grows, wherever the winding and the gaps are. *)
Theorem C58_gap_lowers_inductance : forall K u u' gaps gaps' N N' l M M' i,
  construct K (Some u) gaps = Ok N -> construct K (Some u') gaps' = Ok N' ->
  Forall (fun c => 0 < c_height c) (k_columns K) -> Forall (fun r => 0 <= r) gaps ->
  u <= u' -> Forall2 Qle gaps gaps' -> placed N l ->
  inductance_matrix N l = Ok M -> inductance_matrix N' l = Ok M' -> (i < List.length l)%nat ->
  entry M' i i <= entry M i i.
Proof.
  intros K u u' gaps gaps' N N' l M M' i H H' HP GP UU GG P E E' I.
  assert (GP' : Forall (fun r => 0 <= r) gaps').
  { clear - GP GG. induction GG; constructor; inversion GP; subst; [lra | auto]. }
  pose proof (construct_harder K u u' gaps gaps' N N' H H' HP UU GG) as HD.
  destruct (construct_valid K u gaps N H HP GP) as (V & _). destruct (construct_valid K u' gaps' N' H' HP GP') as (V' & _).
  assert (P' : placed N' l) by (intros w W; rewrite (h_count _ _ HD); apply P; exact W).
  destruct (matrix_spec N l V P) as (M0 & E0 & L & fs & S). assert (M0 = M) by congruence. subst M0.
  destruct (matrix_spec N' l V' P') as (M1 & E1 & L1 & fs' & S'). assert (M1 = M') by congruence. subst M1.
  destruct (S i I) as (LI & RI & TI). destruct (S' i I) as (LI' & RI' & TI').
  rewrite (proj2 (TI i I)), (proj2 (TI' i I)).
  rewrite <- (paired_unit N _ _ (nth i fs []) RI). rewrite <- (paired_unit N _ _ (nth i fs' []) RI).
  apply (rayleigh N N'); try assumption. rewrite <- (h_count _ _ HD). exact LI'.
Qed.

(** An ungapped core, or any gapped one: a winding on the main column never has
    more inductance than the lumped ungapped core gives it. *)
Theorem C58_ungapped_bound : forall K u gaps N l M i,
  construct K (Some u) gaps = Ok N -> Forall (fun c => 0 < c_height c) (k_columns K) ->
  Forall (fun r => 0 <= r) gaps -> placed N l -> inductance_matrix N l = Ok M -> (i < List.length l)%nat ->
  column_of l i = n_main N ->
  entry M i i <= turns_of l i * turns_of l i / u.
Proof.
  intros K u gaps N l M i H HP GP P E I CM.
  destruct (construct_valid K u gaps N H HP GP) as (V & NC & MR & MC).
  destruct (construct_inv K u gaps N H HP) as (U & main & legs & yokes & x & MC' & V0 & NC0 & LW & XM & LG & EN).
  assert (main = n_main N) by congruence. subst main.
  set (N0 := mk_network legs yokes (order_of K) (n_main N)) in *.
  assert (LL : List.length legs = List.length (k_columns K)) by exact NC0.
  assert (HD : harder N0 N).
  { constructor; rewrite EN; unfold ncol; cbn [n_columns n_yokes n_order N0]; try reflexivity.
    - apply add_gaps_length.
    - intros c C. rewrite add_gaps_at by assumption. pose proof (gap_total_nonneg K c (k_gaps K) gaps GP). lra.
    - intros k KK. lra. }
  destruct (matrix_spec N l V P) as (M0 & E0 & L & fs & S). assert (M0 = M) by congruence. subst M0.
  destruct (S i I) as (LI & RI & TI). rewrite (proj2 (TI i I)). rewrite CM in *.
  set (t := turns_of l i) in *.
  pose proof (laws_scale N0 _ _ t V0 LW) as LS.
  assert (LT : laws N0 (unit_force (ncol N) (n_main N) t) (map (fun k => t * at_ x k) (seq 0 (ncol N0)))).
  { eapply laws_ext; [exact V0| |exact LS]. intros k K0. rewrite at_map_seq by exact K0.
    rewrite (h_count _ _ HD) in *. rewrite !at_unit by exact MR. destruct (Nat.eqb k (n_main N)); lra. }
  assert (M0R : (n_main N < ncol N0)%nat) by (rewrite <- (h_count _ _ HD); exact MR).
  pose proof (rayleigh N0 N _ _ _ V0 V HD LT LI) as R.
  rewrite (h_count _ _ HD) in R. rewrite !paired_unit in R by exact M0R.
  rewrite at_map_seq in R by exact M0R. rewrite XM in R.
  assert (EQ : t * (t * (1 / u)) == t * t / u) by (field; lra). lra.
Qed.

(** ** C59: placement of windings *)

(** The window a winding is placed in: its own, else that of the first section
    it has turns in. *)
Definition window_of_winding (sections : list section) (g : winding) (w : Z) : Prop :=
  g_window g = Some w \/
  (g_window g = None /\ exists before s after, sections = before ++ s :: after /\
     s_conduction s = true /\ s_window s = Some w /\ In (g_name g) (s_windings s) /\
     forall s', In s' before -> s_conduction s' = true -> In (g_name g) (s_windings s') -> s_window s' = None).

Definition unplaced (sections : list section) (g : winding) : Prop :=
  g_window g = None /\
  forall s, In s sections -> s_conduction s = true -> In (g_name g) (s_windings s) -> s_window s = None.

Lemma existsb_name : forall n l, existsb (String.eqb n) l = true <-> In n l.
Proof.
  intros n l. rewrite existsb_exists. split.
  - intros (x & I & E). apply String.eqb_eq in E. subst. exact I.
  - intro I. exists n. split; [exact I | apply String.eqb_refl].
Qed.

Lemma windows_of_In : forall sections name w, In w (windows_of sections name) <->
  exists s, In s sections /\ s_conduction s = true /\ s_window s = Some w /\ In name (s_windings s).
Proof.
  intros sections name w. unfold windows_of. rewrite in_flat_map. split.
  - intros (s & I & H). exists s. destruct (s_conduction s), (s_window s) as [v|]; try destruct H.
    destruct (existsb _ _) eqn:X; [|destruct H]. destruct H as [<-|[]].
    apply existsb_name in X. auto.
  - intros (s & I & C & W & N). exists s. split; [exact I|]. rewrite C, W.
    apply existsb_name in N. rewrite N. left. reflexivity.
Qed.

Lemma windows_of_hd : forall sections name w, hd_error (windows_of sections name) = Some w <->
  exists before s after, sections = before ++ s :: after /\
    s_conduction s = true /\ s_window s = Some w /\ In name (s_windings s) /\
    forall s', In s' before -> s_conduction s' = true -> In name (s_windings s') -> s_window s' = None.
Proof.
  intros sections name w. induction sections as [|s t IH].
  - split; [discriminate|]. intros (b & s & a & E & _). destruct b; discriminate.
  - unfold windows_of. cbn [flat_map]. fold (windows_of t name). split.
    + intro H.
      assert (D : (s_conduction s = true /\ In name (s_windings s) /\ exists v, s_window s = Some v) \/
                  (s_conduction s = true -> In name (s_windings s) -> s_window s = None)).
      { destruct (s_conduction s); [|right; discriminate].
        destruct (s_window s) as [v|]; [|right; reflexivity].
        destruct (existsb (String.eqb name) (s_windings s)) eqn:X.
        - left. split; [reflexivity|]. split; [apply existsb_name; exact X | exists v; reflexivity].
        - right. intros _ N. apply existsb_name in N. congruence. }
      destruct D as [(C & N & v & W)|D].
      * rewrite C, W in H. rewrite (proj2 (existsb_name name (s_windings s)) N) in H. cbn in H.
        injection H as ->. exists [], s, t. split; [reflexivity|]. repeat split; auto. intros s' [].
      * assert (Z : (match s_conduction s, s_window s with
            | true, Some w => if existsb (String.eqb name) (s_windings s) then [w] else []
            | _, _ => [] end) = []).
        { destruct (s_conduction s) eqn:C; [|reflexivity]. destruct (s_window s) eqn:W; [|reflexivity].
          destruct (existsb _ _) eqn:X; [|reflexivity]. apply existsb_name in X.
          specialize (D eq_refl X). discriminate. }
        rewrite Z in H. cbn [app] in H. apply IH in H. destruct H as (b & s0 & a & -> & C & W & N & B).
        exists (s :: b), s0, a. split; [reflexivity|]. split; [exact C|]. split; [exact W|]. split; [exact N|].
        intros s' [<-|I]; [exact D | apply B; exact I].
    + intros (b & s0 & a & E & C & W & N & B). destruct b as [|b0 b]; cbn [app] in E; injection E as <- ->.
      * rewrite C, W. rewrite (proj2 (existsb_name name (s_windings s)) N). reflexivity.
      * assert (Z : (match s_conduction s, s_window s with
            | true, Some w => if existsb (String.eqb name) (s_windings s) then [w] else []
            | _, _ => [] end) = []).
        { destruct (s_conduction s) eqn:CS; [|reflexivity]. destruct (s_window s) eqn:WS; [|reflexivity].
          destruct (existsb _ _) eqn:X; [|reflexivity]. apply existsb_name in X.
          pose proof (B s (or_introl eq_refl) CS X). congruence. }
        rewrite Z. cbn [app]. apply IH. exists b, s0, a. split; [reflexivity|]. repeat split; auto.
        intros s' I. apply B. right. exact I.
Qed.

Lemma window_of_some : forall sections g w, window_of sections g = Some w <-> window_of_winding sections g w.
Proof.
  intros sections g w. unfold window_of, window_of_winding. destruct (g_window g) as [v|].
  - split; [intro H; left; exact H | intros [H|(H & _)]; [exact H | discriminate]].
  - rewrite windows_of_hd. split; [intro H; right; split; [reflexivity | exact H] | intros [H|(_ & H)]; [discriminate | exact H]].
Qed.

Lemma window_of_none : forall sections g, window_of sections g = None <-> unplaced sections g.
Proof.
  intros sections g. unfold window_of, unplaced. destruct (g_window g) as [v|].
  - split; [discriminate | intros (H & _); discriminate].
  - split.
    + intro H. split; [reflexivity|]. intros s I C N. destruct (s_window s) as [w|] eqn:W; [|reflexivity].
      assert (IN : In w (windows_of sections (g_name g))) by (apply windows_of_In; exists s; auto).
      destruct (windows_of sections (g_name g)); [destruct IN | discriminate].
    + intros (_ & H). destruct (windows_of sections (g_name g)) as [|w l] eqn:E; [reflexivity|].
      assert (IN : In w (windows_of sections (g_name g))) by (rewrite E; left; reflexivity).
      apply windows_of_In in IN. destruct IN as (s & I & C & W & N). rewrite (H s I C N) in W. discriminate.
Qed.

Lemma window_column_range : forall K k c, window_column K k = Ok c -> (c < List.length (k_columns K))%nat.
Proof.
  intros K k c H. unfold window_column in H. destruct (nth_error (k_windows K) k) as [[z|]|]; try discriminate.
  - destruct (Z.ltb_spec z 0); [discriminate|]. cbn [orb] in H.
    destruct (Nat.ltb_spec (Z.to_nat z) (List.length (k_columns K))); cbn [negb] in H; [|discriminate].
    injection H as <-. assumption.
  - exact (main_column_range K c H).
Qed.

Lemma same_column_spec : forall K c ws, same_column K c ws = Ok tt ->
  forall w, In w ws -> in_range K w = true -> window_column K (Z.to_nat w) = Ok c.
Proof.
  intros K c. induction ws as [|v ws IH]; intros H w I R; [destruct I|]. cbn [same_column] in H.
  destruct (in_range K v) eqn:RV.
  - destruct (window_column K (Z.to_nat v)) as [d| | |] eqn:WC; try discriminate. cbn [bind] in H.
    destruct (Nat.eqb_spec d c) as [->|]; [|discriminate]. destruct I as [<-|I]; [exact WC | exact (IH H w I R)].
  - destruct I as [<-|I]; [congruence | exact (IH H w I R)].
Qed.

Lemma in_range_iff : forall K w, in_range K w = true <-> (0 <= w < Z.of_nat (List.length (k_windows K)))%Z.
Proof.
  intros K w. unfold in_range. rewrite andb_true_iff, negb_true_iff, Z.ltb_ge, Nat.ltb_lt. lia.
Qed.

Lemma resolve_all_nth : forall K sections main l cs, resolve_all K sections main l = Ok cs ->
  List.length cs = List.length l /\
  forall i g, nth_error l i = Some g -> exists c, nth_error cs i = Some c /\ resolve_winding K sections main g = Ok c.
Proof.
  intros K sections main. induction l as [|h t IH]; intros cs H; cbn [resolve_all] in H.
  - injection H as <-. split; [reflexivity|]. intros [|i] g E; discriminate.
  - destruct (resolve_winding K sections main h) as [c| | |] eqn:R; try discriminate. cbn [bind] in H.
    destruct (resolve_all K sections main t) as [cs'| | |] eqn:RA; try discriminate. cbn [bind] in H.
    injection H as <-. destruct (IH cs' eq_refl) as (L & I). split; [cbn [List.length]; lia|].
    intros [|i] g E; cbn [nth_error] in *; [|exact (I i g E)]. injection E as <-. exists c. auto.
Qed.

(** The main column is the first central one, or the first of all. *)
Theorem C59_main_column : forall K main, main_column K = Ok main ->
  (exists before c after, k_columns K = before ++ c :: after /\ List.length before = main /\
     c_central c = true /\ Forall (fun c' => c_central c' = false) before)
  \/ (main = 0%nat /\ Forall (fun c => c_central c = false) (k_columns K)).
Proof.
  intros K main H. unfold main_column in H. destruct (k_columns K) as [|c0 l0] eqn:E; [discriminate|].
  rewrite <- E in *. injection H as <-. clear E.
  assert (G : forall l k, (exists before c after, l = before ++ c :: after /\ first_central k l = (k + List.length before)%nat /\
     c_central c = true /\ Forall (fun c' => c_central c' = false) before)
     \/ (first_central k l = 0%nat /\ Forall (fun c => c_central c = false) l)).
  { induction l as [|c l IH]; intro k; [right; split; [reflexivity | constructor]|]. cbn [first_central].
    destruct (c_central c) eqn:CC.
    - left. exists [], c, l. split; [reflexivity|]. split; [cbn; lia|]. split; [exact CC | constructor].
    - destruct (IH (S k)) as [(b & d & a & -> & F & CD & FB)|(F & FB)].
      + left. exists (c :: b), d, a. split; [reflexivity|]. split; [cbn [List.length]; lia|]. split; [exact CD|].
        constructor; assumption.
      + right. split; [exact F | constructor; assumption]. }
  destruct (G (k_columns K) 0%nat) as [(b & d & a & EQ & F & CD & FB)|(F & FB)].
  - left. exists b, d, a. repeat split; auto.
  - right. split; assumption.
Qed.

(** A window without a column is on the main one, one with a column on that. *)
Theorem C59_column_of_window : forall K k w, nth_error (k_windows K) k = Some w ->
  window_column K k =
    match w with
    | None => main_column K
    | Some c => if (0 <=? c)%Z && (c <? Z.of_nat (List.length (k_columns K)))%Z then Ok (Z.to_nat c)
                else Throw "Winding window references a column the core does not have"
    end.
Proof.
  intros K k w E. unfold window_column. rewrite E. destruct w as [c|]; [|reflexivity].
  destruct (Z.ltb_spec c 0); destruct (Z.leb_spec 0 c); try lia; cbn [orb andb]; [reflexivity|].
  destruct (Nat.ltb_spec (Z.to_nat c) (List.length (k_columns K)));
    destruct (Z.ltb_spec c (Z.of_nat (List.length (k_columns K)))); try lia; reflexivity.
Qed.

(** One column for each winding, and one the core has. *)
Theorem C59_one_column_each : forall K sections l cs, resolve_winding_columns K sections l = Ok cs ->
  List.length cs = List.length l /\ Forall (fun c => (c < List.length (k_columns K))%nat) cs.
Proof.
  intros K sections l cs H. unfold resolve_winding_columns in H.
  destruct (main_column K) as [main| | |] eqn:MC; try discriminate. cbn [bind] in H.
  destruct (resolve_all_nth K sections main l cs H) as (L & R). split; [exact L|].
  apply Forall_forall. intros c I. apply In_nth_error in I. destruct I as (i & EI).
  assert (IL : (i < List.length l)%nat) by (rewrite <- L; apply nth_error_Some; congruence).
  destruct (nth_error l i) as [g|] eqn:EG; [|apply nth_error_None in EG; lia].
  destruct (R i g EG) as (c' & EC & RW). assert (c' = c) by congruence. subst c'.
  unfold resolve_winding in RW. destruct (window_of sections g) as [w|].
  - destruct (in_range K w); cbn [negb] in RW; [|discriminate].
    destruct (window_column K (Z.to_nat w)) as [d| | |] eqn:WC; try discriminate. cbn [bind] in RW.
    destruct (same_column _ _ _) in RW; try discriminate. cbn [bind] in RW. injection RW as <-.
    exact (window_column_range _ _ _ WC).
  - injection RW as <-. exact (main_column_range K main MC).
Qed.

(** A winding placed nowhere goes on the main column. *)
Theorem C59_default_main : forall K sections l cs i g main, resolve_winding_columns K sections l = Ok cs ->
  main_column K = Ok main -> nth_error l i = Some g -> unplaced sections g -> nth_error cs i = Some main.
Proof.
  intros K sections l cs i g main H MC EG U. unfold resolve_winding_columns in H. rewrite MC in H. cbn [bind] in H.
  destruct (resolve_all_nth K sections main l cs H) as (_ & R). destruct (R i g EG) as (c & EC & RW).
  unfold resolve_winding in RW. apply window_of_none in U. rewrite U in RW. congruence.
Qed.

(** A placed one goes on the column of its window, which the core has, and every
    other window of the core its sections name is on that column too. *)
Theorem C59_window_column : forall K sections l cs i g w, resolve_winding_columns K sections l = Ok cs ->
  nth_error l i = Some g -> window_of_winding sections g w ->
  (0 <= w < Z.of_nat (List.length (k_windows K)))%Z /\
  exists c, nth_error cs i = Some c /\ window_column K (Z.to_nat w) = Ok c /\
    forall s v, In s sections -> s_conduction s = true -> In (g_name g) (s_windings s) -> s_window s = Some v ->
      (0 <= v < Z.of_nat (List.length (k_windows K)))%Z -> window_column K (Z.to_nat v) = Ok c.
Proof.
  intros K sections l cs i g w H EG W. unfold resolve_winding_columns in H.
  destruct (main_column K) as [main| | |] eqn:MC; try discriminate. cbn [bind] in H.
  destruct (resolve_all_nth K sections main l cs H) as (_ & R). destruct (R i g EG) as (c & EC & RW).
  unfold resolve_winding in RW. apply window_of_some in W. rewrite W in RW.
  destruct (in_range K w) eqn:IR; cbn [negb] in RW; [|discriminate].
  destruct (window_column K (Z.to_nat w)) as [d| | |] eqn:WC; try discriminate. cbn [bind] in RW.
  destruct (same_column K d (windows_of sections (g_name g))) as [[]| | |] eqn:SC; try discriminate. cbn [bind] in RW.
  injection RW as ->. split; [apply in_range_iff; exact IR|].
  exists c. split; [exact EC|]. split; [reflexivity|]. intros s v IS C N WV RV.
  apply (same_column_spec K c _ SC); [apply windows_of_In; exists s; auto | apply in_range_iff; exact RV].
Qed.

(** The converse: nothing else is rejected. *)
Theorem C59_accepts : forall K sections l, k_columns K <> [] ->
  (forall w, (w < List.length (k_windows K))%nat -> exists c, window_column K w = Ok c) ->
  (forall g w, In g l -> window_of_winding sections g w ->
     (0 <= w < Z.of_nat (List.length (k_windows K)))%Z /\
     forall s v, In s sections -> s_conduction s = true -> In (g_name g) (s_windings s) -> s_window s = Some v ->
       (0 <= v < Z.of_nat (List.length (k_windows K)))%Z ->
       window_column K (Z.to_nat v) = window_column K (Z.to_nat w)) ->
  exists cs, resolve_winding_columns K sections l = Ok cs.
Proof.
  intros K sections l NE WD H. unfold resolve_winding_columns.
  assert (exists main, main_column K = Ok main) as (main & ->).
  { unfold main_column. destruct (k_columns K); [congruence|]. eexists. reflexivity. }
  cbn [bind]. induction l as [|g l IH]; [exists []; reflexivity|].
  destruct IH as (cs & E); [intros g' w I; apply H; right; exact I|]. cbn [resolve_all].
  assert (exists c, resolve_winding K sections main g = Ok c) as (c & R).
  { unfold resolve_winding. destruct (window_of sections g) as [w|] eqn:W; [|eexists; reflexivity].
    apply window_of_some in W. destruct (H g w (or_introl eq_refl) W) as (RW & SW).
    rewrite (proj2 (in_range_iff K w) RW). cbn [negb].
    destruct (WD (Z.to_nat w) ltac:(lia)) as (c & WC). rewrite WC. cbn [bind].
    assert (SC : same_column K c (windows_of sections (g_name g)) = Ok tt).
    { assert (ALL : forall v, In v (windows_of sections (g_name g)) -> in_range K v = true ->
        window_column K (Z.to_nat v) = Ok c).
      { intros v I IR. apply windows_of_In in I. destruct I as (s & IS & C & WV & N).
        rewrite (SW s v IS C N WV (proj1 (in_range_iff K v) IR)). exact WC. }
      induction (windows_of sections (g_name g)) as [|v ws IHw]; [reflexivity|]. cbn [same_column].
      destruct (in_range K v) eqn:IR.
      - rewrite (ALL v (or_introl eq_refl) IR). cbn [bind]. rewrite Nat.eqb_refl. apply IHw. intros; apply ALL; auto. right; auto.
      - apply IHw. intros; apply ALL; auto. right; auto. }
    rewrite SC. cbn [bind]. exists c. reflexivity. }
  rewrite R. cbn [bind]. rewrite E. cbn [bind]. eexists. reflexivity.
Qed.

(** The answer that picks the multi-column model: some winding is off the main
    column. *)
Theorem C59_non_main : forall K sections l b, has_non_main_placement K sections l = Ok b ->
  k_columns K <> [] ->
  (b = true <-> exists cs c main, resolve_winding_columns K sections l = Ok cs /\ main_column K = Ok main /\
     In c cs /\ c <> main).
Proof.
  intros K sections l b H NE. unfold has_non_main_placement in H.
  destruct (existsb _ l) eqn:X; cbn [negb] in H.
  - destruct (resolve_winding_columns K sections l) as [cs| | |] eqn:R; try discriminate. cbn [bind] in H.
    destruct (main_column K) as [main| | |] eqn:MC; try discriminate. cbn [bind] in H. injection H as <-.
    rewrite existsb_exists. split.
    + intros (c & I & N). exists cs, c, main. repeat split; auto. intro EQ. subst.
      rewrite Nat.eqb_refl in N. discriminate.
    + intros (cs' & c & main' & EQ & EM & I & N). assert (cs' = cs) by congruence. assert (main' = main) by congruence.
      subst. exists c. split; [exact I|]. apply negb_true_iff. apply Nat.eqb_neq. exact N.
  - injection H as <-. split; [discriminate|]. intros (cs & c & main & R & MC & I & N). exfalso.
    apply In_nth_error in I. destruct I as (i & EI).
    destruct (C59_one_column_each K sections l cs R) as (L & _).
    assert (IL : (i < List.length l)%nat) by (rewrite <- L; apply nth_error_Some; congruence).
    destruct (nth_error l i) as [g|] eqn:EG; [|apply nth_error_None in EG; lia].
    assert (U : unplaced sections g).
    { apply window_of_none. destruct (window_of sections g) eqn:W; [|reflexivity].
      assert (Y : existsb (fun g => match window_of sections g with Some _ => true | None => false end) l = true).
      { apply existsb_exists. exists g. split; [apply nth_error_In in EG; exact EG|]. rewrite W. reflexivity. }
      congruence. }
    pose proof (C59_default_main K sections l cs i g main R MC EG U). congruence.
Qed.

(** ** From a core and a coil *)

(** What C34 and C57 say of the two calls together. *)
Theorem C34_core_and_coil : forall K u gaps sections l M,
  coil_inductance_matrix K (Some u) gaps sections l = Ok M ->
  Forall (fun c => 0 < c_height c) (k_columns K) -> Forall (fun r => 0 <= r) gaps ->
  List.length M = List.length l /\
  (forall i j, (i < List.length l)%nat -> (j < List.length l)%nat ->
     entry M i j == entry M j i /\ entry M i j * entry M i j <= entry M i i * entry M j j) /\
  (forall currents, List.length currents = List.length l -> 0 <= quadratic M (List.length l) currents) /\
  (forall i g, nth_error l i = Some g -> g_turns g <> 0%Z -> 0 < entry M i i).
Proof.
  intros K u gaps sections l M H HP GP. unfold coil_inductance_matrix in H.
  destruct (construct K (Some u) gaps) as [N| | |] eqn:C; try discriminate. cbn [bind] in H.
  destruct (resolve_winding_columns K sections l) as [cs| | |] eqn:R; try discriminate. cbn [bind] in H.
  destruct (construct_valid K u gaps N C HP GP) as (V & NC & _).
  destruct (C59_one_column_each K sections l cs R) as (LC & RC).
  assert (LW : List.length (wound_of l cs) = List.length l).
  { unfold wound_of, wound. rewrite combine_length, map_length. lia. }
  assert (P : placed N (wound_of l cs)).
  { intros (t & c) W. apply in_combine_r in W. cbn [snd]. rewrite NC. rewrite Forall_forall in RC. apply RC. exact W. }
  destruct (C34_total N _ V P) as (M' & E & LM & _). assert (M' = M) by congruence. subst M'.
  split; [congruence|]. split; [|split].
  - intros i j I J. rewrite <- LW in I, J. split; [apply (C34_symmetric N (wound_of l cs)); assumption|].
    apply (C34_coupling N (wound_of l cs)); assumption.
  - intros currents L. rewrite <- LW. apply (C34_passive N (wound_of l cs)); try assumption. congruence.
  - intros i g EG TN. assert (I : (i < List.length l)%nat) by (apply nth_error_Some; congruence).
    rewrite <- LW in I.
    destruct (C33_solver_never_fails N (unit_force (List.length (n_columns N)) (column_of (wound_of l cs) i) 1) V) as (r & ER & _).
    destruct (C34_diagonal N _ M i r V P E I ER) as (DP & DE). rewrite DE.
    assert (TE : turns_of (wound_of l cs) i = inject_Z (g_turns g)).
    { unfold wound_of, wound. rewrite combine_nth by (rewrite map_length; lia). cbn [fst].
      apply nth_error_nth. rewrite nth_error_map, EG. reflexivity. }
    rewrite TE. apply Qlt_shift_div_l; [exact DP|]. rewrite Qmult_0_l.
    rewrite <- inject_Z_mult. change 0 with (inject_Z 0). rewrite <- Zlt_Qlt. nia.
Qed.

(** ** Concrete cases *)

(** A three-column core, the columns listed centre first, with a gap in the
    centre and one in the right column. *)
Definition sample_core : core :=
  mk_core [mk_column 0 0 10 4 2 true; mk_column (-6) 0 10 2 2 false; mk_column 6 0 10 2 2 false]
    20 (Some 10) [Some 0%Z; Some 2%Z] [(0, 0)].
Definition sample_windings : list winding :=
  [mk_winding "primary"%string 10 None; mk_winding "secondary"%string 4 (Some 1%Z); mk_winding "tertiary"%string 3 None].
Definition sample_sections : list section :=
  [mk_section false (Some 1%Z) ["tertiary"%string]; mk_section true (Some 0%Z) ["tertiary"%string; "primary"%string]].

Example C33_witness :
  match construct sample_core (Some 100) [50] with
  | Ok N => valid N /\ exists f, column_fluxes N [1; 0; 0] = Ok f /\ 0 < at_ f 0 /\ at_ f 1 < 0
  | _ => False
  end.
Proof.
  destruct (construct sample_core (Some 100) [50]) as [N| | |] eqn:E; try (vm_compute in E; discriminate).
  split.
  - refine (proj1 (construct_valid sample_core 100 [50] N E _ _)); repeat constructor; cbn; lra.
  - vm_compute in E. injection E as <-. eexists. split; [vm_compute; reflexivity|]. split; vm_compute; reflexivity.
Qed.

Example C57_witness :
  (forall x z, In (x, z) (k_gaps sample_core) -> closest_column sample_core x z = 0%nat) /\
  match construct sample_core (Some 100) [50] with
  | Ok N => n_main N = 0%nat /\ exists f, column_fluxes N [1; 0; 0] = Ok f /\ at_ f 0 == 1 / 150
  | _ => False
  end.
Proof.
  split; [intros x z [[= <- <-]|[]]; reflexivity|].
  destruct (construct sample_core (Some 100) [50]) as [N| | |] eqn:E; try (vm_compute in E; discriminate).
  vm_compute in E. injection E as <-. split; [reflexivity|]. eexists. split; [vm_compute; reflexivity|]. reflexivity.
Qed.

Example C34_witness :
  match coil_inductance_matrix sample_core (Some 100) [50] sample_sections sample_windings with
  | Ok M => entry M 0 0 == 100 / 150 /\ entry M 0 1 < 0 /\ 0 < entry M 1 1 /\ entry M 0 2 == 30 / 150
  | _ => False
  end.
Proof. vm_compute. repeat split. Qed.

Example C58_witness :
  match coil_inductance_matrix sample_core (Some 100) [50] sample_sections sample_windings,
        coil_inductance_matrix sample_core (Some 100) [80] sample_sections sample_windings with
  | Ok M, Ok M' => entry M' 1 1 < entry M 1 1
  | _, _ => False
  end.
Proof. vm_compute. reflexivity. Qed.

Example C59_witness : resolve_winding_columns sample_core sample_sections sample_windings = Ok [0; 2; 0]%nat
  /\ has_non_main_placement sample_core sample_sections sample_windings = Ok true
  /\ resolve_winding_columns sample_core
       (mk_section true (Some 1%Z) ["tertiary"%string] :: sample_sections) sample_windings
     = Throw "Winding has sections in more than one column".
Proof. repeat split. Qed.

Print Assumptions C33_solver_never_fails.
Print Assumptions C33_flux_conserved.
Print Assumptions C33_window_law.
Print Assumptions C33_unique.
Print Assumptions C33_linear.
Print Assumptions C33_order_of_columns.
Print Assumptions C33_flux_density.
Print Assumptions C57_gap_on_closest_column.
Print Assumptions C57_gaps_in_series.
Print Assumptions C59_main_column.
Print Assumptions C59_column_of_window.
Print Assumptions C34_symmetric.
Print Assumptions C34_flux_linkage.
Print Assumptions C34_passive.
Print Assumptions C34_diagonal.
Print Assumptions C34_coupling.
Print Assumptions C34_core_and_coil.
Print Assumptions C57_calibrated.
Print Assumptions C57_main_column_windings.
Print Assumptions C58_gap_lowers_inductance.
Print Assumptions C58_ungapped_bound.
Print Assumptions C59_one_column_each.
Print Assumptions C59_default_main.
Print Assumptions C59_window_column.
Print Assumptions C59_accepts.
Print Assumptions C59_non_main.
