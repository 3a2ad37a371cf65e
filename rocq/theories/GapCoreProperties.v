(** * Reluctance and energy of gapped cores (C112, C113) *)
From Coq Require Import Reals List String Lra Psatz Permutation.
From Verif Require Import Base GapModel GapProofs GapProperties.
Import ListNotations.
Local Open Scope outcome_scope.
Local Open Scope R_scope.

(** ** Vocabulary *)

Fixpoint total (l : list R) : R := match l with [] => 0 | x :: r => x + total r end.

(** the gaps of the core evaluated one by one *)
Definition evaluated (m : reluctance_model) (bsat : R) (c : core) (l : list (gap_result * nat)) : Prop :=
  Forall2 (fun p q => gap_reluctance m bsat (fst p) = Ok (fst q) /\ snd p = snd q) (gaps c) l.

(** the flux crosses the gaps of the main column one after the other, and
    divides among the gaps of the other columns *)
Definition in_series (main : nat) (l : list (gap_result * nat)) : list R :=
  map (fun q => reluctance (fst q)) (filter (fun q => Nat.eqb (snd q) main) l).
Definition in_parallel (main : nat) (l : list (gap_result * nat)) : list R :=
  map (fun q => reluctance (fst q)) (filter (fun q => negb (Nat.eqb (snd q) main)) l).
Definition parallel_of (l : list R) : R := match l with [] => 0 | _ => 1 / total (map (fun r => 1 / r) l) end.

Definition positive (l : list (gap_result * nat)) : Prop := Forall (fun q => 0 < reluctance (fst q)) l.

(** ** Sums *)

Lemma total_app : forall l k, total (l ++ k) = total l + total k.
Proof. induction l as [|x l IH]; intro k; simpl; [ring | rewrite IH; ring]. Qed.
Lemma total_pos : forall l, Forall (fun x => 0 < x) l -> l <> [] -> 0 < total l.
Proof.
  induction l as [|x l IH]; intros F N; [congruence|]. inversion F as [|y z P Q]; subst. simpl.
  destruct l as [|y l]; [simpl; lra|]. assert (0 < total (y :: l)) by (apply IH; [assumption | congruence]). lra.
Qed.
Lemma total_nonneg : forall l, Forall (fun x => 0 < x) l -> 0 <= total l.
Proof. intros [|x l] F; [simpl; lra|]. apply Rlt_le, total_pos; [assumption | congruence]. Qed.
Lemma total_le : forall l k, Forall2 Rle l k -> total l <= total k.
Proof. intros l k F. induction F as [|x y l k E F IH]; simpl; lra. Qed.
Lemma total_permutation : forall l k, Permutation l k -> total l = total k.
Proof. intros l k P. induction P; simpl; lra. Qed.

Lemma inverses_positive : forall l, Forall (fun x => 0 < x) l -> Forall (fun x => 0 < x) (map (fun r => 1 / r) l).
Proof. intros l F. apply Forall_map. eapply Forall_impl; [|exact F]. intros x P. apply Rdiv_pos; lra. Qed.

Lemma positive_filter : forall f l, positive l -> Forall (fun x => 0 < x) (map (fun q => reluctance (fst q)) (filter f l)).
Proof.
  intros f l P. apply Forall_map. apply Forall_forall. intros q I. apply filter_In in I.
  unfold positive in P. rewrite Forall_forall in P. apply P. tauto.
Qed.

Definition highest_factor (f : R) (l : list (gap_result * nat)) : R := fold_left (fun f q => Rmax f (fringing (fst q))) l f.

Lemma five : forall (a a' b b' c c' d d' : R) (l l' : list gap_result), a = a' -> b = b' -> c = c' -> d = d' -> l = l' ->
  Ok (a, b, c, d, l) = Ok (a', b', c', d', l').
Proof. intros. subst. reflexivity. Qed.

Lemma gap_loop_sum : forall m bsat main l rs, Forall2 (fun p q => gap_reluctance m bsat (fst p) = Ok (fst q) /\ snd p = snd q) l rs ->
  forall central lateral factor stored results,
  gap_loop m bsat main l central lateral factor stored results
  = Ok (central + total (in_series main rs), lateral + total (map (fun r => 1 / r) (in_parallel main rs)),
        highest_factor factor rs, stored + total (map (fun q => energy (fst q)) rs), (results ++ map fst rs)%list).
Proof.
  intros m bsat main l rs F. induction F as [|[g col] [r col'] l rs (E & C) F IH]; intros central lateral factor stored results.
  - simpl. unfold in_series, in_parallel. simpl. rewrite app_nil_r, !Rplus_0_r. reflexivity.
  - cbn [fst snd] in E, C. subst col'. cbn [gap_loop]. rewrite E. cbn [bind]. rewrite IH.
    unfold in_series, in_parallel. cbn [filter snd]. destruct (Nat.eqb col main); cbn [negb map total fst highest_factor fold_left];
      rewrite <- app_assoc; cbn [app]; apply five; try reflexivity; ring.
Qed.

Lemma gap_loop_inv : forall m bsat main l central lateral factor stored results s,
  gap_loop m bsat main l central lateral factor stored results = Ok s ->
  exists rs, Forall2 (fun p q => gap_reluctance m bsat (fst p) = Ok (fst q) /\ snd p = snd q) l rs.
Proof.
  intros m bsat main l. induction l as [|[g col] l IH]; intros central lateral factor stored results s E.
  - exists []. constructor.
  - cbn [gap_loop] in E. destruct (gap_reluctance m bsat g) as [r| | |] eqn:G; try discriminate. cbn [bind] in E.
    apply IH in E as (rs & F). exists ((r, col) :: rs). constructor; [split; [exact G | reflexivity] | exact F].
Qed.

(** ** C112: the total *)

Lemma gapping_value : forall m bsat c l, evaluated m bsat c l -> positive l ->
  exists r, gapping m bsat c = Ok r /\
    gapping_reluctance r = total (in_series (main_column c) l) + parallel_of (in_parallel (main_column c) l) /\
    maximum_fringing r = highest_factor 1 l /\ storable r = total (map (fun q => energy (fst q)) l) /\
    per_gap r = map fst l.
Proof.
  intros m bsat c l F P. unfold gapping. rewrite (gap_loop_sum _ _ _ _ _ F). cbn [bind app].
  eexists. split; [reflexivity|]. cbn [gapping_reluctance maximum_fringing storable per_gap].
  rewrite !Rplus_0_l. split; [|tauto].
  pose proof (inverses_positive _ (positive_filter (fun q => negb (Nat.eqb (snd q) (main_column c))) l P)) as IP.
  fold (in_parallel (main_column c) l) in IP. unfold parallel_of.
  destruct (in_parallel (main_column c) l) as [|x k].
  - simpl. destruct (Rlt_dec 0 0); [lra | ring].
  - assert (0 < total (map (fun r => 1 / r) (x :: k))) by (apply total_pos; [assumption | discriminate]).
    destruct (Rlt_dec _ _) as [_|N]; [reflexivity | contradiction].
Qed.

Theorem C112_total : forall m bsat c mu l, evaluated m bsat c l -> positive l ->
  exists r, core_reluctance m bsat c mu
            = Ok (effective_length_of c / (mu0 * mu * effective_area_of c)
                  + (total (in_series (main_column c) l) + parallel_of (in_parallel (main_column c) l)),
                  effective_length_of c / (mu0 * mu * effective_area_of c), r) /\
    per_gap r = map fst l /\ storable r = total (map (fun q => energy (fst q)) l).
Proof.
  intros m bsat c mu l F P. destruct (gapping_value m bsat c l F P) as (r & E & R & _ & S & G).
  exists r. unfold core_reluctance, ungapped_reluctance. rewrite E. cbn [bind]. rewrite R. tauto.
Qed.

Lemma parallel_pos : forall k, Forall (fun x => 0 < x) k -> 0 <= parallel_of k /\ (k <> [] -> 0 < parallel_of k).
Proof.
  intros [|x k] F; [split; [simpl; lra | congruence]|]. unfold parallel_of.
  assert (0 < 1 / total (map (fun r => 1 / r) (x :: k))).
  { apply Rdiv_pos; [lra|]. apply total_pos; [apply inverses_positive; assumption | discriminate]. }
  split; [lra | intros _; assumption].
Qed.

(** Gaps raise the reluctance, so lower the inductance of any number of turns. *)
Theorem C112_gaps_raise : forall m bsat c mu l t u r, evaluated m bsat c l -> positive l ->
  core_reluctance m bsat c mu = Ok (t, u, r) ->
  u = effective_length_of c / (mu0 * mu * effective_area_of c) /\ u <= t /\ (l <> [] -> u < t).
Proof.
  intros m bsat c mu l t u r F P E. destruct (C112_total m bsat c mu l F P) as (r' & E' & _).
  rewrite E' in E. injection E as <- <- <-. split; [reflexivity|].
  pose proof (positive_filter (fun q => Nat.eqb (snd q) (main_column c)) l P) as P1. fold (in_series (main_column c) l) in P1.
  pose proof (positive_filter (fun q => negb (Nat.eqb (snd q) (main_column c))) l P) as P2. fold (in_parallel (main_column c) l) in P2.
  pose proof (total_nonneg _ P1) as T1. destruct (parallel_pos _ P2) as (T2 & T2').
  split; [lra|]. intro N. destruct l as [|q l]; [congruence|].
  unfold in_series, in_parallel in *. cbn [filter] in *. destruct (Nat.eqb (snd q) (main_column c)); cbn [negb map] in *.
  - assert (0 < total (reluctance (fst q) :: map (fun q => reluctance (fst q)) (filter (fun q => Nat.eqb (snd q) (main_column c)) l)))
      by (apply total_pos; [assumption | discriminate]). lra.
  - assert (0 < parallel_of (reluctance (fst q) :: map (fun q => reluctance (fst q)) (filter (fun q => negb (Nat.eqb (snd q) (main_column c))) l)))
      by (apply T2'; discriminate). lra.
Qed.

(** Raising the reluctance of gaps, in any column, never lowers the total. *)
Theorem C112_monotone : forall m m' bsat bsat' c c' l l' r r', evaluated m bsat c l -> evaluated m' bsat' c' l' -> positive l ->
  main_column c = main_column c' ->
  Forall2 (fun q q' => snd q = snd q' /\ reluctance (fst q) <= reluctance (fst q')) l l' ->
  gapping m bsat c = Ok r -> gapping m' bsat' c' = Ok r' -> gapping_reluctance r <= gapping_reluctance r'.
Proof.
  intros m m' bsat bsat' c c' l l' r r' F F' P MC O E E'.
  assert (P' : positive l').
  { clear - P O. induction O as [|q q' l l' (C & L) O IH]; [constructor|]. inversion P as [|x y P0 P1]; subst.
    constructor; [lra | apply IH; assumption]. }
  destruct (gapping_value m bsat c l F P) as (x & Ex & Rx & _). destruct (gapping_value m' bsat' c' l' F' P') as (y & Ey & Ry & _).
  rewrite Ex in E; rewrite Ey in E'. injection E as <-. injection E' as <-. rewrite Rx, Ry, <- MC.
  assert (S : Forall2 Rle (in_series (main_column c) l) (in_series (main_column c) l') /\
              Forall2 Rle (in_parallel (main_column c) l) (in_parallel (main_column c) l')).
  { clear - O. induction O as [|q q' l l' (C & L) O (IH1 & IH2)]; [split; constructor|].
    unfold in_series, in_parallel in *. cbn [filter]. rewrite C.
    destruct (Nat.eqb (snd q') (main_column c)); cbn [negb map]; split; try assumption; constructor; assumption. }
  destruct S as (S1 & S2). apply Rplus_le_compat; [apply total_le; exact S1|].
  pose proof (positive_filter (fun q => negb (Nat.eqb (snd q) (main_column c))) l P) as P2.
  fold (in_parallel (main_column c) l) in P2. clear - S2 P2.
  destruct S2 as [|a b k k' L S2]; [simpl; lra|]. unfold parallel_of.
  assert (Q : Forall2 Rle (map (fun r => 1 / r) (b :: k')) (map (fun r => 1 / r) (a :: k))).
  { assert (G : Forall2 Rle (a :: k) (b :: k')) by (constructor; assumption). revert P2 G. generalize (a :: k) (b :: k').
    intros u v PU G. induction G as [|x y u v L' G IH]; [constructor|]. inversion PU as [|z w Z W]; subst.
    constructor; [apply inv_decreases_le; lra | apply IH; assumption]. }
  apply inv_decreases_le; [lra | | apply total_le; exact Q].
  apply total_pos; [|discriminate]. apply inverses_positive.
  assert (G : Forall2 Rle (a :: k) (b :: k')) by (constructor; assumption). revert P2 G. generalize (a :: k) (b :: k').
  intros u v PU G. induction G as [|x y u v L' G IH]; [constructor|]. inversion PU as [|z w Z W]; subst.
  constructor; [lra | apply IH; assumption].
Qed.

(** The order in which the gaps are listed does not matter. *)
Theorem C112_order : forall m bsat c c' r, Permutation (gaps c) (gaps c') -> main_column c = main_column c' ->
  gapping m bsat c = Ok r ->
  exists r', gapping m bsat c' = Ok r' /\ gapping_reluctance r' = gapping_reluctance r /\
    maximum_fringing r' = maximum_fringing r /\ storable r' = storable r /\ Permutation (per_gap r) (per_gap r').
Proof.
  intros m bsat c c' r P MC E. unfold gapping in *.
  destruct (gap_loop m bsat (main_column c) (gaps c) 0 0 1 0 []) as [s| | |] eqn:G; try discriminate.
  destruct (gap_loop_inv _ _ _ _ _ _ _ _ _ _ G) as (rs & F). rewrite (gap_loop_sum _ _ _ _ _ F) in G. injection G as <-.
  cbn [bind app] in E. injection E as <-.
  assert (X : exists rs', Permutation rs rs' /\
    Forall2 (fun p q => gap_reluctance m bsat (fst p) = Ok (fst q) /\ snd p = snd q) (gaps c') rs').
  { apply Permutation_Forall2 with (1 := P) (2 := F). }
  destruct X as (rs' & PR & F'). rewrite <- MC, (gap_loop_sum _ _ _ _ _ F'). cbn [bind app].
  eexists. split; [reflexivity|]. cbn [gapping_reluctance maximum_fringing storable per_gap].
  assert (Q : forall f : gap_result * nat -> bool, Permutation (filter f rs) (filter f rs')).
  { intro f. clear - PR. induction PR as [|x l l' PR IH|x y l|l l' l'' P1 IH1 P2 IH2]; simpl.
    - constructor.
    - destruct (f x); [constructor|]; exact IH.
    - destruct (f x), (f y); try constructor; apply Permutation_refl.
    - eapply Permutation_trans; eassumption. }
  assert (S1 : total (in_series (main_column c) rs') = total (in_series (main_column c) rs)).
  { symmetry. apply total_permutation. unfold in_series. apply Permutation_map, Q. }
  assert (S2 : total (map (fun r => 1 / r) (in_parallel (main_column c) rs')) = total (map (fun r => 1 / r) (in_parallel (main_column c) rs))).
  { symmetry. apply total_permutation, Permutation_map. unfold in_parallel. apply Permutation_map, Q. }
  rewrite S1, S2. split; [reflexivity|]. split; [|split; [|apply Permutation_map; exact PR]].
  - clear - PR. generalize 1. induction PR as [|x l l' PR IH|x y l|l l' l'' P1 IH1 P2 IH2]; intro f.
    + reflexivity.
    + unfold highest_factor in *. cbn [fold_left]. apply IH.
    + unfold highest_factor. cbn [fold_left]. f_equal. rewrite <- !Rmax_assoc. f_equal. apply Rmax_comm.
    + rewrite IH2. apply IH1.
  - f_equal. symmetry. apply total_permutation, Permutation_map. exact PR.
Qed.

(** The fringing factor reported is the highest of the gaps, and at least one. *)
Lemma highest_factor_bounds : forall l f, f <= highest_factor f l /\
  (forall q, In q l -> fringing (fst q) <= highest_factor f l) /\
  (highest_factor f l = f \/ exists q, In q l /\ highest_factor f l = fringing (fst q)).
Proof.
  induction l as [|q l IH]; intro f.
  - split; [simpl; lra|]. split; [intros q []|]. left. reflexivity.
  - change (highest_factor f (q :: l)) with (highest_factor (Rmax f (fringing (fst q))) l).
    destruct (IH (Rmax f (fringing (fst q)))) as (A & B & C). pose proof (Rmax_l f (fringing (fst q))). pose proof (Rmax_r f (fringing (fst q))).
    split; [lra|]. split.
    + intros x [<-|I]; [lra | apply B, I].
    + destruct C as [C|(x & I & C)].
      * rewrite C. unfold Rmax. destruct (Rle_dec f (fringing (fst q))); [right; exists q; split; [left|]; reflexivity | left; reflexivity].
      * right. exists x. split; [right|]; assumption.
Qed.
Theorem C112_fringing : forall m bsat c r, gapping m bsat c = Ok r ->
  1 <= maximum_fringing r /\ (forall x, In x (per_gap r) -> fringing x <= maximum_fringing r) /\
  (maximum_fringing r = 1 \/ exists x, In x (per_gap r) /\ maximum_fringing r = fringing x).
Proof.
  intros m bsat c r E. unfold gapping in E.
  destruct (gap_loop m bsat (main_column c) (gaps c) 0 0 1 0 []) as [s| | |] eqn:G; try discriminate.
  destruct (gap_loop_inv _ _ _ _ _ _ _ _ _ _ G) as (rs & F). rewrite (gap_loop_sum _ _ _ _ _ F) in G. injection G as <-.
  cbn [bind app] in E. injection E as <-. cbn [maximum_fringing per_gap].
  destruct (highest_factor_bounds rs 1) as (A & B & C). split; [exact A|]. split.
  - intros x I. apply in_map_iff in I as (q & <- & I). apply B, I.
  - destruct C as [C|(q & I & C)]; [left; exact C|]. right. exists (fst q). split; [apply in_map, I | exact C].
Qed.

(** The model used is not reported: the method is always "Default". *)
Theorem C112_method_refuted : forall m bsat c r, gapping m bsat c = Ok r -> method r = "Default"%string.
Proof.
  intros m bsat c r E. unfold gapping in E.
  destruct (gap_loop m bsat (main_column c) (gaps c) 0 0 1 0 []) as [[[[[s1 s2] s3] s4] s5]| | |]; try discriminate.
  cbn [bind] in E. injection E as <-. reflexivity.
Qed.

(** An ungapped return path is left out of the parallel: opening a gap in it
    lowers the reluctance of the core. *)
Definition leg (l : R) (column : nat) : gap * nat := (mkGap l (Some 1) None None None None None, column).
Lemma leg_value : forall bsat l column, exists r, gap_reluctance Classic bsat (fst (leg l column)) = Ok r /\ reluctance r = l / mu0.
Proof.
  intros. cbn. eexists. split; [reflexivity|]. cbn. unfold Rdiv. rewrite Rmult_1_r. reflexivity.
Qed.
Theorem C112_opening_refuted : exists m bsat c c' r r',
  (exists g, gaps c' = (gaps c ++ [g])%list /\ 0 < length (fst g)) /\ main_column c' = main_column c /\
  gapping m bsat c = Ok r /\ gapping m bsat c' = Ok r' /\ gapping_reluctance r' < gapping_reluctance r.
Proof.
  set (c := mkCore 1 1 1 0 [leg 1 1]). set (c' := mkCore 1 1 1 0 [leg 1 1; leg 1 2]). pose proof mu0_pos as M.
  destruct (leg_value 1 1 1) as (x & Ex & Rx). destruct (leg_value 1 1 2) as (y & Ey & Ry).
  assert (P : 0 < 1 / mu0) by (apply Rdiv_pos; lra).
  destruct (gapping_value Classic 1 c [(x, 1%nat)]) as (r & E & R & _).
  { constructor; [split; [exact Ex | reflexivity] | constructor]. }
  { constructor; [cbn; lra | constructor]. }
  destruct (gapping_value Classic 1 c' [(x, 1%nat); (y, 2%nat)]) as (r' & E' & R' & _).
  { constructor; [split; [exact Ex | reflexivity] | constructor; [split; [exact Ey | reflexivity] | constructor]]. }
  { constructor; [cbn; lra | constructor; [cbn; lra | constructor]]. }
  exists Classic, 1, c, c', r, r'. split; [exists (leg 1 2); split; [reflexivity | cbn; lra]|]. split; [reflexivity|].
  split; [exact E|]. split; [exact E'|]. rewrite R, R'. cbn. rewrite Rx, Ry. set (q := 1 / mu0) in *.
  assert (1 / (1 / q + (1 / q + 0)) = q / 2) by (field; lra). assert (1 / (1 / q + 0) = q) by (field; lra). lra.
Qed.

(** The saturation only enters the energies: reluctances and factors do not depend on it. *)
Lemma report_saturation : forall b b' g r f name x, report b g r f name = Ok x ->
  exists x', report b' g r f name = Ok x' /\ reluctance x' = reluctance x /\ fringing x' = fringing x.
Proof.
  intros b b' g r f name x E. unfold report, storable_energy in *. destruct (area g) as [a|]; cbn [bind] in *; [|discriminate].
  injection E as <-. eexists. split; [reflexivity|]. split; reflexivity.
Qed.
Theorem C112_saturation_irrelevant : forall m b b' g x, gap_reluctance m b g = Ok x ->
  exists x', gap_reluctance m b' g = Ok x' /\ reluctance x' = reluctance x /\ fringing x' = fringing x.
Proof.
  intros m b b' g x E.
  destruct m; cbn [gap_reluctance] in *;
    unfold zhang, partridge, effective_area, effective_length, muehlethaler, stenglein, balakrishnan, classic in *;
    repeat match type of E with
    | bind (required ?o _) _ = Ok _ => destruct o; cbn [required bind] in *; [|discriminate]
    | (if ?c then _ else _) = Ok _ => destruct c; try discriminate
    | (match ?s with Round => _ | Other => _ end) = Ok _ => destruct s
    end; cbv zeta in *;
    repeat match type of E with (if ?c then _ else _) = Ok _ => destruct c; try discriminate end;
    apply (report_saturation b b') in E; exact E.
Qed.

(** ** C113: energy *)

(** Without a core the reluctance is that of the air inside the bobbin's column,
    over the height of the window and both its walls. *)
Theorem C112_air : forall b, 0 < column_width b - column_thickness b -> 0 < column_depth b - column_thickness b ->
  match column_shape_of b with
  | Some s => exists r, air_reluctance (Some b) = Ok r /\
      r * (mu0 * match s with
                 | Round => PI * (column_width b - column_thickness b) ^ 2
                 | Other => (2 * (column_width b - column_thickness b)) * (2 * (column_depth b - column_thickness b))
                 end) = wall b + window_height b + wall b
  | None => exists e, air_reluctance (Some b) = Throw e
  end.
Proof.
  intros b W D. unfold air_reluctance. pose proof mu0_pos. pose proof PI_RGT_0.
  destruct (column_shape_of b) as [[|]|]; eexists; try reflexivity; (split; [reflexivity|]); field; repeat split; lra.
Qed.

(** The energy a gap stores at saturation is half the square of the saturation
    flux times its reluctance, when the model's factor and reluctance agree
    (C110), and the length that stores this energy is the length of the gap. *)
Theorem C113_gap_energy : forall m g a bsat r, 0 < length g -> area g = Some a -> 0 < a -> 0 < bsat -> 0 < fringing r ->
  gap_reluctance m (4 / 10) g = Ok r -> reluctance r * fringing r = plain g a ->
  exists e, gap_energy m g bsat None = Ok e /\ e = (bsat * a) ^ 2 * reluctance r / 2 /\ 0 < e /\
    length_by_energy m g bsat e = Ok (length g).
Proof.
  intros m g a bsat r L A AP B F E C. pose proof mu0_pos as M. unfold gap_energy, length_by_energy. rewrite A, E. cbn [bind].
  assert (R : reluctance r = length g / (mu0 * a) / fringing r).
  { unfold plain in C. rewrite <- C. field. lra. }
  eexists. split; [reflexivity|]. split; [rewrite R; field; repeat split; lra|]. split.
  - replace (1 / 2 / mu0 * length g * a / fringing r * bsat ^ 2) with (length g * a * bsat ^ 2 / (2 * mu0 * fringing r)) by (field; repeat split; lra).
    apply Rdiv_pos; [|apply Rmult_lt_0_compat; lra].
    apply Rmult_lt_0_compat; [apply Rmult_lt_0_compat; assumption | apply pow_lt; assumption].
  - f_equal. field. repeat split; lra.
Qed.

(** A gap whose factor is given stores inversely to it. *)
Theorem C113_given_factor : forall m g a bsat f f', area g = Some a -> 0 < f -> 0 < f' ->
  exists e e', gap_energy m g bsat (Some f) = Ok e /\ gap_energy m g bsat (Some f') = Ok e' /\ e * f = e' * f'.
Proof.
  intros m g a bsat f f' A F F'. unfold gap_energy. rewrite A. cbn [bind]. do 2 eexists.
  split; [reflexivity|]. split; [reflexivity|]. pose proof mu0_pos. field. repeat split; lra.
Qed.

(** The permeability that stores the energy of an ungapped core is its own. *)
Theorem C113_permeability : forall c mu bsat, 0 < mu -> 0 < bsat -> 0 < effective_volume_of c ->
  0 < ungapped_energy c mu bsat /\ permeability_by_energy c bsat (ungapped_energy c mu bsat) = mu.
Proof.
  intros c mu bsat U B V. unfold permeability_by_energy, ungapped_energy. pose proof mu0_pos as M. split.
  - apply Rmult_lt_0_compat; [|apply pow_lt; assumption]. apply Rmult_lt_0_compat; [|assumption].
    apply Rdiv_pos; [lra | apply Rmult_lt_0_compat; assumption].
  - field. repeat split; lra.
Qed.

(** A core whose gaps all lie on the main column and share its area: the energy
    at saturation is half the square of the flux times the total reluctance,
    so [L I^2 / 2] at the current that saturates it, for any number of turns. *)
Lemma gaps_energy_sum : forall m bsat main a l rs stored, 0 < a ->
  Forall2 (fun p q => gap_reluctance m (4 / 10) (fst p) = Ok (fst q) /\ snd p = snd q) l rs ->
  Forall (fun p => area (fst p) = Some a /\ snd p = main) l ->
  Forall2 (fun p q => 0 < fringing (fst q) /\ reluctance (fst q) * fringing (fst q) = plain (fst p) a) l rs ->
  gaps_energy m l bsat stored = Ok (stored + (bsat * a) ^ 2 * total (in_series main rs) / 2) /\ in_parallel main rs = [].
Proof.
  intros m bsat main a l rs stored AP F. revert stored. pose proof mu0_pos as M.
  induction F as [|[g col] [r col'] l rs (E & C) F IH]; intros stored G K.
  - split; [simpl; f_equal; field | reflexivity].
  - cbn [fst snd] in E, C. subst col'. inversion G as [|x y (A & MC) G']; subst. cbn [fst snd] in *. subst.
    inversion K as [|x y z w (FP & RF) K']; subst. cbn [fst snd] in *.
    destruct (IH (stored + 1 / 2 / mu0 * length g * a / fringing r * bsat ^ 2) G' K') as (I1 & I2).
    split.
    + cbn [gaps_energy]. unfold gap_energy. rewrite A, E. cbn [bind]. rewrite I1. f_equal.
      unfold in_series. cbn [filter snd]. rewrite Nat.eqb_refl. cbn [map total fst].
      set (t := total _). assert (R : reluctance r = length g / (mu0 * a) / fringing r).
      { unfold plain in RF. rewrite <- RF. field. lra. }
      rewrite R. field. repeat split; lra.
    + unfold in_parallel. cbn [filter snd]. rewrite Nat.eqb_refl. exact I2.
Qed.

Lemma other_saturation : forall m b b' (l : list (gap * nat)) (rs : list (gap_result * nat)),
  Forall2 (fun p q => gap_reluctance m b (fst p) = Ok (fst q) /\ snd p = snd q) l rs ->
  exists rs', Forall2 (fun p q => gap_reluctance m b' (fst p) = Ok (fst q) /\ snd p = snd q) l rs' /\
    Forall2 (fun q q' => snd q = snd q' /\ reluctance (fst q') = reluctance (fst q) /\ fringing (fst q') = fringing (fst q)) rs rs'.
Proof.
  intros m b b' l rs F. induction F as [|p q l rs (E & C) F (rs' & I1 & I2)]; [exists []; split; constructor|].
  destruct (C112_saturation_irrelevant m b b' _ _ E) as (x & Ex & X). exists ((x, snd q) :: rs').
  split; constructor; cbn [fst snd]; tauto.
Qed.
Lemma same_series : forall main (rs rs' : list (gap_result * nat)),
  Forall2 (fun q q' => snd q = snd q' /\ reluctance (fst q') = reluctance (fst q) /\ fringing (fst q') = fringing (fst q)) rs rs' ->
  in_series main rs' = in_series main rs /\ in_parallel main rs' = in_parallel main rs.
Proof.
  intros main rs rs' F. induction F as [|q q' rs rs' (C & R & _) F (I1 & I2)]; [split; reflexivity|].
  unfold in_series, in_parallel in *. cbn [filter]. rewrite <- C. destruct (Nat.eqb (snd q) main); cbn [negb map]; split; congruence.
Qed.

Theorem C113_core_energy : forall m bsat c mu l saturation turns t u r, 0 < effective_area_of c -> 0 < mu -> 0 < turns -> 0 < t ->
  effective_volume_of c = effective_length_of c * effective_area_of c ->
  evaluated m bsat c l -> positive l ->
  Forall (fun p => area (fst p) = Some (effective_area_of c) /\ snd p = main_column c) (gaps c) ->
  Forall2 (fun p q => 0 < fringing (fst q) /\ reluctance (fst q) * fringing (fst q) = plain (fst p) (effective_area_of c)) (gaps c) l ->
  core_reluctance m bsat c mu = Ok (t, u, r) ->
  let flux := saturation true * effective_area_of c in
  let inductance := turns ^ 2 / t in
  let current := flux * t / turns in
  core_energy m c mu saturation true = Ok (flux ^ 2 * t / 2) /\ flux ^ 2 * t / 2 = inductance * current ^ 2 / 2.
Proof.
  intros m bsat c mu l saturation turns t u r AP U N T V F0 P G K E flux inductance current. pose proof mu0_pos as M.
  destruct (C112_total m bsat c mu l F0 P) as (r' & E' & _). rewrite E' in E. injection E as ET EU ER. clear ER E'.
  destruct (other_saturation m bsat (4 / 10) _ _ F0) as (l' & F & X). destruct (same_series (main_column c) _ _ X) as (XS & XP).
  assert (K' : Forall2 (fun p q => 0 < fringing (fst q) /\ reluctance (fst q) * fringing (fst q) = plain (fst p) (effective_area_of c)) (gaps c) l').
  { clear - K X. revert l' X. induction K as [|p q k l B K IH]; intros l' X; inversion X; subst; constructor.
    - destruct H1 as (_ & -> & ->). exact B.
    - apply IH. assumption. }
  destruct (gaps_energy_sum m (saturation true) (main_column c) (effective_area_of c) (gaps c) l'
    (ungapped_energy c mu (saturation true)) AP F G K') as (S & Q).
  rewrite XS in S. rewrite XP in Q. split.
  - unfold core_energy. rewrite S. f_equal. rewrite Q in ET. cbn [parallel_of] in ET. rewrite <- ET.
    unfold ungapped_energy, flux. rewrite V. set (s := total _). field. repeat split; lra.
  - unfold inductance, current. field. repeat split; lra.
Qed.

(** The proportion of the saturation asked for is not passed on to the energy of
    the ungapped core: without gaps the answer does not depend on it. *)
Theorem C113_proportion_refuted : exists m c mu saturation e,
  0 < saturation true < saturation false /\ core_energy m c mu saturation false = Ok e /\
  e = ungapped_energy c mu (saturation true) /\ e < ungapped_energy c mu (saturation false).
Proof.
  exists Classic, (mkCore 1 1 1 0 []), 1, (fun b : bool => if b then 1 else 2), (ungapped_energy (mkCore 1 1 1 0 []) 1 1).
  split; [lra|]. split; [reflexivity|]. split; [reflexivity|]. unfold ungapped_energy. cbn. pose proof mu0_pos as M.
  assert (0 < 1 / 2 / (mu0 * 1)) by (apply Rdiv_pos; lra). nra.
Qed.

(** The gap length against saturation: with the fringing factor unchanged, a gap
    of this length and no core reluctance brings the peak flux density of
    [N = sqrt (L R)] turns exactly to the target. *)
Theorem C113_saturation_length : forall m g a c target inductance peak r x turns, area g = Some a -> 0 < a ->
  0 < effective_area_of c -> 0 < target -> 0 < inductance -> 0 < peak -> 0 < turns ->
  gap_reluctance m (4 / 10) g = Ok r -> 0 < fringing r -> length_by_saturation m g c target inductance peak = Ok x ->
  let reluctance' := x / (mu0 * a * fringing r) in
  0 < x /\ (turns ^ 2 = inductance * reluctance' -> turns * peak / (reluctance' * effective_area_of c) = target).
Proof.
  intros m g a c target inductance peak r x turns A AP EA T I P N E F LS reluctance'. pose proof mu0_pos as M.
  unfold length_by_saturation in LS. rewrite A, E in LS. cbn [bind] in LS. injection LS as LX.
  assert (XP : 0 < x).
  { rewrite <- LX. apply Rdiv_pos.
    - repeat apply Rmult_lt_0_compat; try assumption; lra.
    - repeat apply Rmult_lt_0_compat; try assumption; lra. }
  split; [exact XP|]. intro TQ.
  assert (RV : reluctance' = inductance * peak ^ 2 / (target ^ 2 * effective_area_of c ^ 2)).
  { unfold reluctance'. rewrite <- LX. field. repeat split; lra. }
  assert (RP : 0 < reluctance').
  { unfold reluctance'. apply Rdiv_pos; [assumption|]. apply Rmult_lt_0_compat; [apply Rmult_lt_0_compat|]; assumption. }
  set (b := turns * peak / (reluctance' * effective_area_of c)).
  assert (BP : 0 < b) by (unfold b; apply Rdiv_pos; apply Rmult_lt_0_compat; assumption).
  assert (SQ : b ^ 2 = target ^ 2).
  { unfold b. replace ((turns * peak / (reluctance' * effective_area_of c)) ^ 2)
      with (turns ^ 2 * peak ^ 2 / (reluctance' ^ 2 * effective_area_of c ^ 2)) by (field; lra).
    rewrite TQ. replace (inductance * reluctance' * peak ^ 2 / (reluctance' ^ 2 * effective_area_of c ^ 2))
      with (inductance * peak ^ 2 / (reluctance' * effective_area_of c ^ 2)) by (field; lra).
    rewrite RV. field. repeat split; lra. }
  nra.
Qed.

(** The required energy is that of the highest peak of all the operating points,
    at the least, nominal and greatest inductance, in this order. *)
Lemma peak_loop_value : forall l p0 p, peak_loop l p0 = Ok p ->
  p0 <= p /\ (forall c q, In c l -> peak_of c = Ok q -> q <= p) /\
  (p = p0 \/ exists c, In c l /\ peak_of c = Ok p).
Proof.
  induction l as [|c l IH]; intros p0 p E; cbn [peak_loop] in E.
  - injection E as <-. split; [lra|]. split; [intros c q []|]. left. reflexivity.
  - destruct (peak_of c) as [q| | |] eqn:C; try discriminate. cbn [bind] in E. destruct (IH _ _ E) as (A & B & D).
    pose proof (Rmax_l p0 q). pose proof (Rmax_r p0 q). split; [lra|]. split.
    + intros x y [<-|I] Y; [rewrite C in Y; injection Y as <-; lra | exact (B x y I Y)].
    + destruct D as [D|(x & I & D)].
      * rewrite D. unfold Rmax. destruct (Rle_dec p0 q); [right; exists c; split; [left; reflexivity | exact C] | left; reflexivity].
      * right. exists x. split; [right; exact I | exact D].
Qed.

Lemma highest_ge : forall l x, x <= highest x l /\ forall y, In y l -> y <= highest x l.
Proof.
  induction l as [|z l IH]; intro x; [split; [simpl; lra | intros y []]|].
  change (highest x (z :: l)) with (highest (Rmax x z) l). destruct (IH (Rmax x z)) as (A & B).
  pose proof (Rmax_l x z). pose proof (Rmax_r x z). split; [lra|]. intros y [<-|I]; [lra | apply B, I].
Qed.
Lemma lowest_le : forall l x, lowest x l <= x /\ forall y, In y l -> lowest x l <= y.
Proof.
  induction l as [|z l IH]; intro x; [split; [simpl; lra | intros y []]|].
  change (lowest x (z :: l)) with (lowest (Rmin x z) l). destruct (IH (Rmin x z)) as (A & B).
  pose proof (Rmin_l x z). pose proof (Rmin_r x z). split; [lra|]. intros y [<-|I]; [lra | apply B, I].
Qed.

(** the peak of a sampled current bounds every sample, of either sign *)
Theorem C113_peak : forall l p, peak_of (Samples l) = Ok p -> forall x, In x l -> Rabs x <= p.
Proof.
  intros [|z l] p E x I; [destruct I|]. cbn in E. injection E as <-.
  destruct (highest_ge l z) as (A & B). destruct (lowest_le l z) as (C & D).
  pose proof (Rmax_l (highest z l) (- lowest z l)). pose proof (Rmax_r (highest z l) (- lowest z l)).
  assert (x <= highest z l /\ lowest z l <= x) as (U & V) by (destruct I as [<-|I]; [tauto | split; [apply B | apply D]; exact I]).
  apply Rabs_le. lra.
Qed.

Theorem C113_required : forall inductance l e, required_energy inductance l = Ok e ->
  exists peak, 0 <= peak /\
    (forall c q, In c l -> peak_of c = Ok q -> q <= peak) /\ (peak = 0 \/ exists c, In c l /\ peak_of c = Ok peak) /\
    minimum e = option_map (fun x => x * peak ^ 2 / 2) (minimum inductance) /\
    nominal e = option_map (fun x => x * peak ^ 2 / 2) (nominal inductance) /\
    maximum e = option_map (fun x => x * peak ^ 2 / 2) (maximum inductance).
Proof.
  intros inductance l e E. unfold required_energy in E. destruct (peak_loop l 0) as [p| | |] eqn:P; try discriminate.
  cbn [bind] in E. injection E as <-. exists p. destruct (peak_loop_value _ _ _ P) as (A & B & C). tauto.
Qed.
Theorem C113_required_order : forall inductance l e lo hi, required_energy inductance l = Ok e ->
  minimum inductance = Some lo -> maximum inductance = Some hi -> 0 <= lo <= hi ->
  exists elo ehi, minimum e = Some elo /\ maximum e = Some ehi /\ 0 <= elo <= ehi /\
    (forall c q, In c l -> peak_of c = Ok q -> 0 <= q -> lo * q ^ 2 / 2 <= elo).
Proof.
  intros inductance l e lo hi E L H O. destruct (C113_required _ _ _ E) as (p & P & B & _ & M1 & _ & M2).
  rewrite L in M1. rewrite H in M2. cbn in M1, M2. do 2 eexists. split; [exact M1|]. split; [exact M2|].
  change (p * (p * 1)) with (p ^ 2). assert (0 <= p ^ 2) by apply pow2_ge_0. split; [split; nra|].
  intros c q I Q NQ. pose proof (B c q I Q). assert (q ^ 2 <= p ^ 2) by nra. nra.
Qed.
(** An operating point without a magnetizing current is an error. *)
Theorem C113_missing_current : forall inductance l, In NoCurrent l -> exists e, required_energy inductance l = Throw e.
Proof.
  intros inductance l I. unfold required_energy. enough (X : forall p, exists e, peak_loop l p = Throw e).
  { destruct (X 0) as (e & ->). exists e. reflexivity. }
  induction l as [|c l IH]; [destruct I|]. intro p. cbn [peak_loop]. destruct I as [-> |I]; [eexists; reflexivity|].
  destruct c as [|q|[|x k]]; cbn [peak_of bind]; try (eexists; reflexivity); apply IH; exact I.
Qed.

(** ** A concrete case: one gap in the middle and one in each side leg *)
Definition three_gaps : core := mkCore 1 1 1 0 [leg 1 0; leg 1 1; leg 1 2].
Example C112_witness : exists l, evaluated Classic 1 three_gaps l /\ positive l /\ l <> [] /\
  (exists r, gapping Classic 1 three_gaps = Ok r).
Proof.
  destruct (leg_value 1 1 0) as (x & Ex & Rx). destruct (leg_value 1 1 1) as (y & Ey & Ry). destruct (leg_value 1 1 2) as (z & Ez & Rz).
  pose proof mu0_pos as M. assert (P : 0 < 1 / mu0) by (apply Rdiv_pos; lra).
  assert (F : evaluated Classic 1 three_gaps [(x, 0%nat); (y, 1%nat); (z, 2%nat)]).
  { unfold evaluated, three_gaps. cbn [gaps]. repeat constructor; cbn [fst snd]; assumption. }
  assert (PO : positive [(x, 0%nat); (y, 1%nat); (z, 2%nat)]) by (repeat constructor; cbn; lra).
  exists [(x, 0%nat); (y, 1%nat); (z, 2%nat)]. split; [exact F|]. split; [exact PO|]. split; [discriminate|].
  destruct (gapping_value _ _ _ _ F PO) as (r & E & _). exists r. exact E.
Qed.
Definition one_gap : core := mkCore 3 1 3 0 [leg 1 0].
Example C113_witness : exists l, evaluated Classic 1 one_gap l /\ positive l /\
  Forall (fun p => area (fst p) = Some (effective_area_of one_gap) /\ snd p = main_column one_gap) (gaps one_gap) /\
  Forall2 (fun p q => 0 < fringing (fst q) /\ reluctance (fst q) * fringing (fst q) = plain (fst p) (effective_area_of one_gap)) (gaps one_gap) l.
Proof.
  pose proof mu0_pos as M.
  exists [(mkResult (1 / (mu0 * 1)) 1 (1 / 2 / mu0 * 1 * 1 / 1 * 1 ^ 2) "Classic"%string, 0%nat)].
  split; [constructor; [split; reflexivity | constructor]|].
  split; [constructor; [cbn; apply Rdiv_pos; lra | constructor]|].
  split; [constructor; [split; reflexivity | constructor]|].
  constructor; [|constructor]. cbn. unfold plain. cbn. split; [lra | field; lra].
Qed.
Example C113_required_witness : exists e,
  required_energy (mkDimension (Some 1) (Some 2) (Some 3)) [Samples [1; -4; 2]; Peak 3] = Ok e.
Proof. eexists. reflexivity. Qed.

Print Assumptions C112_total.
Print Assumptions C112_monotone.
Print Assumptions C112_order.
Print Assumptions C113_core_energy.
Print Assumptions C113_saturation_length.
Print Assumptions C113_required_order.
