(** The adviser gets to an answer: no stage throws or is undefined when the
    measurements are sound. *)
From Coq Require Import ZArith QArith List String Bool Arith Lia Lqa Permutation Sorted.
From Verif Require Import Base QAux UtilsNumModel UtilsNumProofs AdviserModel AdviserProofs.
Import ListNotations.
Open Scope Q_scope.

(** What is asked of the logarithm. *)
Definition increasing (lg : Q -> Q) : Prop :=
  (forall x y, 0 < x -> x < y -> lg x < lg y) /\ (forall x y, 0 < x -> x == y -> lg x == lg y).

(** ** Normalisation on positive scores *)
Definition log_one (lg : Q -> Q) (mx mn w : Q) (inv : bool) (v : Q) : Q :=
  if Qeq_bool mx mn then w else normalize_one (lg mx) (lg mn) w inv (lg v).

Lemma normalise_loop_map lg mx mn w inv log (f : Q -> Q) (l : list Q) :
  (forall v, In v l -> normalised lg (Some mx) (Some mn) w inv log v = Fin (f v)) ->
  normalise_loop lg (Some mx) (Some mn) w inv log (map Some l) = Ok (map Fin (map f l)).
Proof.
  induction l as [|v t IH]; intros H; cbn [map normalise_loop]; [reflexivity|].
  rewrite IH by (intros; apply H; now right). cbn [bind]. rewrite H by now left. reflexivity.
Qed.

Lemma normalise_linear lg x l w inv :
  normalise lg (map Some (x :: l)) w inv false
  = Ok (map Fin (map (normalize_one (Qmaxl x l) (Qminl x l) w inv) (x :: l))).
Proof.
  unfold normalise. cbn [map]. rewrite max_element_some, min_element_some. cbn [andb].
  apply (normalise_loop_map lg (Qmaxl x l) (Qminl x l) w inv false
           (normalize_one (Qmaxl x l) (Qminl x l) w inv) (x :: l)).
  intros v _. unfold normalised, normalize_one. cbn [andb of_nan].
  destruct (Qeq_bool (Qmaxl x l) (Qminl x l)) eqn:E; cbn [negb]; [reflexivity|].
  assert (N : Qeq_bool (Qmaxl x l + - Qminl x l) 0 = false).
  { apply Bool.not_true_is_false. intros K. apply Qeq_bool_iff in K.
    assert (Qmaxl x l == Qminl x l) as K' by lra. apply Qeq_bool_iff in K'. congruence. }
  destruct inv; cbn [dsub dneg dadd dscale ddiv]; rewrite N; reflexivity.
Qed.

Lemma normalise_log lg x l w inv :
  increasing lg -> (forall v, In v (x :: l) -> 0 < v) ->
  normalise lg (map Some (x :: l)) w inv true
  = Ok (map Fin (map (log_one lg (Qmaxl x l) (Qminl x l) w inv) (x :: l))).
Proof.
  intros [G1 G2] P. unfold normalise. cbn [map]. rewrite max_element_some, min_element_some. cbn [andb].
  destruct (Qmaxl_spec l x) as [Mi Mb]. destruct (Qminl_spec l x) as [mi mb].
  set (mx := Qmaxl x l) in *. set (mn := Qminl x l) in *.
  pose proof (P _ Mi) as Pmx. pose proof (P _ mi) as Pmn.
  assert (Z : forall v, 0 < v -> Qeq_bool v 0 = false /\ Qlt_bool v 0 = false).
  { intros v Hv. split; [|apply Qlt_bool_false; lra]. apply Bool.not_true_is_false.
    intros K. apply Qeq_bool_iff in K. lra. }
  destruct (Z _ Pmn) as [Z1 Z2]. destruct (Z _ Pmx) as [Z3 Z4]. rewrite Z1.
  apply (normalise_loop_map lg mx mn w inv true (log_one lg mx mn w inv) (x :: l)).
  intros v Hv. unfold normalised, log_one, normalize_one. destruct (Z _ (P _ Hv)) as [Z5 Z6].
  rewrite Z5. cbn [andb]. destruct (Qeq_bool mx mn) eqn:E; [reflexivity|].
  assert (D : lg mn < lg mx).
  { apply G1; [exact Pmn|]. assert (~ mx == mn) by (intros K; apply Qeq_bool_iff in K; congruence).
    specialize (Mb mn mi). lra. }
  assert (N : Qeq_bool (lg mx + - lg mn) 0 = false).
  { apply Bool.not_true_is_false. intros K. apply Qeq_bool_iff in K. lra. }
  assert (N' : Qeq_bool (lg mx) (lg mn) = false).
  { apply Bool.not_true_is_false. intros K. apply Qeq_bool_iff in K. lra. }
  unfold dlog. rewrite Z1, Z2, Z3, Z4, Z5, Z6, N'. cbn [negb].
  destruct inv; cbn [dsub dneg dadd dscale ddiv]; rewrite N; reflexivity.
Qed.

(** ** Finite scores *)
Definition fin {A} (l : list (A * dbl)) : Prop := Forall (fun x => exists q, snd x = Fin q) l.
Lemma fin_perm {A} (l l' : list (A * dbl)) : Permutation l l' -> fin l -> fin l'.
Proof. intros P. apply Permutation_Forall. exact P. Qed.
Lemma fin_app {A} (l l' : list (A * dbl)) : fin l -> fin l' -> fin (l ++ l').
Proof. intros. now apply Forall_app. Qed.
Lemma fin_in {A} (l l' : list (A * dbl)) : (forall x, In x l -> In x l') -> fin l' -> fin l.
Proof. unfold fin. rewrite !Forall_forall. auto. Qed.
Lemma fin_cut {A} p n (l : list (A * dbl)) : fin l -> fin (cut p n l).
Proof. apply fin_in. apply subseq_in, cut_subseq. Qed.

Lemma add_fin {A} (l : list (A * dbl)) : forall ns, fin l -> List.length ns = List.length l ->
  exists r, add_contributions l (map Fin ns) = Ok r /\ fin r.
Proof.
  induction l as [|[a s] t IH]; intros [|x ns] F L; cbn in L; try discriminate.
  - exists []. split; [reflexivity|constructor].
  - pose proof (Forall_inv F) as [q Hq]. cbn in Hq. subst s.
    destruct (IH ns (Forall_inv_tail F)) as (r & E & K); [lia|].
    exists ((a, Fin (q + x)) :: r). cbn [map add_contributions bind]. rewrite E. split; [reflexivity|].
    constructor; [cbn; eauto|exact K].
Qed.
Lemma sort_fin {A} (l : list (A * dbl)) : fin l -> exists r, sort l = Ok r /\ fin r.
Proof.
  intros F. destruct (sort_real l) as (r & E & P).
  - revert F. apply Forall_impl. intros x [q Hq]. unfold real. now rewrite Hq.
  - exists r. split; [exact E|]. now apply (fin_perm l).
Qed.

Section Progress.
Variable lg : Q -> Q.
Variables M D : Type.
Hypothesis Lg : increasing lg.

(** A measurement that gives a positive score to whatever it accepts, and never
    fails with anything but an OpenMagneticsException. *)
Definition sound_measure (ev : M -> evaluation M) : Prop := forall m,
  match ev m with
  | Verdict _ true (Some q) _ => 0 < q
  | Verdict _ true None _ => False
  | Verdict _ false _ _ => True
  | Infeasible _ _ => True
  | Fatal _ _ => False
  end.

Lemma cull_ok ev wb (l : list (M * dbl)) : sound_measure ev -> fin l ->
  exists r qs, cull M ev wb l = Ok (r, map Some qs) /\ fin r /\
    List.length qs = List.length r /\ (forall q, In q qs -> 0 < q).
Proof.
  intros S. induction l as [|[m s] t IH]; intros F.
  - exists [], []. repeat split; [constructor|intros ? []].
  - destruct (IH (Forall_inv_tail F)) as (r & qs & E & K & L & P). cbn [cull].
    specialize (S m). destruct (ev m) as [[|] [q|] m'|e|e]; try contradiction; rewrite E; cbn [bind];
      try (exists r, qs; now repeat split).
    exists (((if wb then m' else m), s) :: r), (q :: qs). repeat split.
    + constructor; [exact (Forall_inv F)|exact K].
    + cbn. now rewrite L.
    + intros q' [<-|H]; auto.
Qed.

Lemma apply_scoring_ok b w (l : list (M * dbl)) qs : fin l ->
  List.length qs = List.length l -> (forall q, In q qs -> 0 < q) ->
  exists r, apply_scoring lg M b w l (map Some qs) = Ok r /\ fin r.
Proof.
  intros F L P. unfold apply_scoring. destruct l as [|x t] eqn:El; [|rewrite <- El in *].
  { exists []. split; [reflexivity|constructor]. }
  destruct qs as [|q u]; [subst l; discriminate|].
  assert (N : exists ns, normalise lg (map Some (q :: u)) w true (log_scale b) = Ok (map Fin ns) /\
                List.length ns = List.length l).
  { destruct (log_scale b).
    - rewrite (normalise_log lg q u w true Lg P). eexists. split; [reflexivity|]. now rewrite map_length.
    - rewrite normalise_linear. eexists. split; [reflexivity|]. now rewrite map_length. }
  destruct N as (ns & -> & Ln). cbn [bind].
  destruct (add_fin l ns F Ln) as (r & -> & K). cbn [bind]. now apply sort_fin.
Qed.

Lemma gate_filter_ok ev wb b w (l : list (M * dbl)) : sound_measure ev -> fin l ->
  exists r, gate_filter lg M ev wb b w l = Ok r /\ fin r.
Proof.
  intros S F. destruct (cull_ok ev wb l S F) as (r & qs & E & K & L & P).
  unfold gate_filter. rewrite E. cbn [bind fst snd].
  destruct (Qlt_bool 0 w); [now apply apply_scoring_ok|eauto].
Qed.
Lemma skippable_filter_ok ev b w (l : list (M * dbl)) : sound_measure ev -> fin l ->
  exists r, skippable_filter lg M ev b w l = Ok r /\ fin r.
Proof.
  intros S F. destruct (cull_ok ev true l S F) as (r & qs & E & K & L & P).
  unfold skippable_filter. destruct (Qle_bool w 0); [eauto|]. rewrite E. cbn [bind fst snd].
  now apply apply_scoring_ok.
Qed.
Lemma saturation_filter_ok ev (l : list (M * dbl)) : sound_measure ev -> fin l ->
  exists r, saturation_filter M ev l = Ok r /\ fin r.
Proof.
  intros S F. destruct (cull_ok ev true l S F) as (r & qs & E & K & L & P).
  unfold saturation_filter. rewrite E. cbn [bind fst snd]. eauto.
Qed.
Lemma losses_filter_ok ev cs w (l : list (M * dbl)) : sound_measure ev -> fin l ->
  exists r, losses_filter lg M ev cs w l = Ok r /\ fin r.
Proof.
  intros S F. destruct (cull_ok ev true l S F) as (r & qs & E & K & L & P).
  unfold losses_filter. destruct (Qle_bool w 0); [eauto|].
  destruct l as [|[m s] t]; [eauto|]. destruct (cs m); [eauto|]. rewrite E. cbn [bind fst snd].
  now apply apply_scoring_ok.
Qed.
Lemma turn_count_filter_ok ev w (l : list (M * dbl)) : sound_measure ev -> fin l ->
  exists r, turn_count_filter M ev w l = Ok r /\ fin r.
Proof.
  intros S F. destruct (cull_ok ev false l S F) as (r & qs & E & K & L & P).
  unfold turn_count_filter. destruct (Qle_bool w 0); [eauto|]. rewrite E. cbn [bind fst snd].
  destruct qs as [|q u]; cbn [map]; [eauto|].
  rewrite max_element_some, min_element_some.
  assert (T : exists f, forall v, turn_contribution (Some (Qmaxl q u)) (Some (Qminl q u)) w (Some v) = Fin (f v)).
  { unfold turn_contribution. cbn [nan_lt of_nan dsub dneg dadd ddiv].
    destruct (Qlt_bool (Qminl q u) (Qmaxl q u)) eqn:B; [|eexists; reflexivity].
    apply Qlt_bool_iff in B.
    assert (N : Qeq_bool (Qmaxl q u + - Qminl q u) 0 = false).
    { apply Bool.not_true_is_false. intros X. apply Qeq_bool_iff in X. lra. }
    rewrite N. cbn [dadd dneg dscale]. eexists; reflexivity. }
  destruct T as (f & T).
  change (turn_contribution (Some (Qmaxl q u)) (Some (Qminl q u)) w (Some q)
    :: map (turn_contribution (Some (Qmaxl q u)) (Some (Qminl q u)) w) (map Some u))
    with (map (turn_contribution (Some (Qmaxl q u)) (Some (Qminl q u)) w) (map Some (q :: u))).
  replace (map (turn_contribution (Some (Qmaxl q u)) (Some (Qminl q u)) w) (map Some (q :: u)))
    with (map Fin (map f (q :: u))).
  2:{ rewrite !map_map. apply map_ext. intros v. now rewrite T. }
  destruct (add_fin r (map f (q :: u)) K) as (r' & E' & K').
  { now rewrite map_length. }
  cbn [map] in *. rewrite E'. cbn [bind]. now apply sort_fin.
Qed.
Lemma size_all_ok sz (l : list (M * dbl)) : (forall m e, sz m <> Abort _ e) -> fin l ->
  exists r, size_all M sz l = Ok r /\ fin r.
Proof.
  intros S. induction l as [|[m s] t IH]; intros F.
  { exists []. split; [reflexivity|constructor]. }
  destruct (IH (Forall_inv_tail F)) as (r & E & K). cbn [size_all]. specialize (S m).
  destruct (sz m) as [m'| |e]; [| |now elim (S e)]; rewrite E; cbn [bind]; [|eauto].
  eexists. split; [reflexivity|]. constructor; [exact (Forall_inv F)|exact K].
Qed.
Lemma keep_valid_ok ev (l : list (M * dbl)) : (forall m, exists v s m', ev m = Verdict _ v s m') -> fin l ->
  exists r, keep_valid M ev l = Ok r /\ fin r.
Proof.
  intros S. induction l as [|[m s] t IH]; intros F.
  { exists []. split; [reflexivity|constructor]. }
  destruct (IH (Forall_inv_tail F)) as (r & E & K). cbn [keep_valid].
  destruct (S m) as (v & sc & m' & ->). destruct v; rewrite E; cbn [bind]; [|eauto].
  eexists. split; [reflexivity|]. constructor; [exact (Forall_inv F)|exact K].
Qed.
Lemma reject_ok fr (l : list (M * dbl)) : (forall b m, exists v s m', fr b m = Verdict _ v s m') -> fin l ->
  exists r, reject_winding_killing_gaps M fr l = Ok r /\ fin r.
Proof.
  intros S F. unfold reject_winding_killing_gaps. destruct l as [|x t] eqn:L; [|rewrite <- L in *].
  { exists []. split; [reflexivity|constructor]. }
  destruct (keep_valid_ok (fr false) l (S false) F) as (r & -> & K). cbn [bind].
  destruct r; [|eauto]. now apply keep_valid_ok.
Qed.
Lemma fan_out_fin f (l : list (M * dbl)) : fin l -> fin (fan_out M f l).
Proof.
  unfold fin, fan_out. rewrite !Forall_forall. intros F x Hx.
  apply in_flat_map in Hx as (y & Hy & K). apply in_map_iff in K as (z & <- & _). cbn. now apply F.
Qed.

Variable ph : physics M D.

(** The measurements of a run. *)
Record sound_physics : Prop := {
  s_area : forall mg, sound_measure (area_product M D ph mg);
  s_energy : forall mg, sound_measure (energy_stored M D ph mg);
  s_saturation : forall mg, sound_measure (saturation M D ph mg);
  s_cost : sound_measure (cost M D ph);
  s_dimensions : sound_measure (dimensions M D ph);
  s_losses : sound_measure (losses M D ph);
  s_temperature : sound_measure (temperature M D ph);
  s_impedance : sound_measure (minimum_impedance M D ph);
  s_turns : sound_measure (turn_count M D ph);
  s_inductance : sound_measure (inductance M D ph);
  s_early : sound_measure (early_fringing M D ph);
  s_fringing : forall b m, exists v s m', post_gap_fringing M D ph b m = Verdict _ v s m';
  s_size : forall mg m e, size_turns M D ph mg m <> Abort _ e;
  s_gap : forall m e, size_gap M D ph m <> Abort _ e;
  s_ferrite : exists f, ferrite_materials M D ph = Ok f;
  s_powder : exists f, powder_materials M D ph = Ok f;
  s_choke : exists f, impedance_materials M D ph = Ok f;
  s_correct : forall m, exists m', correct_windings M D ph m = Ok m';
  s_alternatives : forall m, exists m', add_alternatives M D ph m = Ok m'
}.
Hypothesis S : sound_physics.

Ltac step L :=
  let r := fresh "r" in let F := fresh "F" in
  edestruct L as (r & -> & F); [..|cbn [bind]].

Lemma post_ok unique alt (l : list (M * dbl)) : forall n used,
  exists r, post_process_and_cut M D ph unique alt n used l = Ok r.
Proof.
  induction l as [|[m s] t IH]; intros n used; cbn [post_process_and_cut]; [eauto|].
  destruct n as [|n]; [eauto|]. destruct (_ && _); [apply IH|].
  destruct (s_correct S m) as (m1 & ->). cbn [bind].
  assert (A : exists m2, (if alt then add_alternatives M D ph m1 else Ok m1) = Ok m2).
  { destruct alt; [apply (s_alternatives S)|eauto]. }
  destruct A as (m2 & ->). cbn [bind]. destruct (post_process M D ph m2); [|apply IH].
  edestruct IH as (r & ->). cbn [bind]. eauto.
Qed.

Lemma up_to_saturation_ok mg limit (l : list (M * dbl)) : fin l ->
  exists r, up_to_saturation lg M D ph mg limit l = Ok r /\ fin r.
Proof.
  intros F. unfold up_to_saturation.
  destruct (gate_filter_ok _ false EFFICIENCY 1 l (s_area S mg) F) as (r1 & -> & F1). cbn [bind].
  assert (F2 : fin (match limit with Some k => cut true k r1 | None => r1 end)).
  { destruct limit; [now apply fin_cut|assumption]. }
  destruct (gate_filter_ok _ true EFFICIENCY 1 _ (s_energy S mg) F2) as (r3 & -> & F3). cbn [bind].
  destruct (size_all_ok (size_turns M D ph mg) r3 (s_size S mg) F3) as (r4 & -> & F4). cbn [bind].
  apply saturation_filter_ok; [apply (s_saturation S)|exact F4].
Qed.
Lemma from_saturation_ok o w limit (l : list (M * dbl)) : fin l ->
  exists r, from_saturation lg M D ph o w limit l = Ok r /\ fin r.
Proof.
  intros F. unfold from_saturation.
  destruct (reject_ok _ l (s_fringing S) F) as (r1 & -> & F1). cbn [bind].
  destruct (gate_filter_ok _ false COST (weight_or_zero w COST) r1 (s_cost S) F1) as (r2 & -> & F2). cbn [bind].
  destruct (gate_filter_ok _ false DIMENSIONS (weight_or_zero w DIMENSIONS) r2 (s_dimensions S) F2) as (r3 & -> & F3).
  cbn [bind].
  assert (F4 : fin (match limit with Some k => cut true k r3 | None => r3 end)).
  { destruct limit; [now apply fin_cut|assumption]. }
  destruct (losses_filter_ok _ (cannot_score_losses M D ph) (weight_or_zero w EFFICIENCY) _ (s_losses S) F4) as (r5 & -> & F5).
  cbn [bind]. destruct (temperature_filter o); [|eauto].
  apply skippable_filter_ok; [apply (s_temperature S)|exact F5].
Qed.
Lemma power_available_ok o w after n (l : list (M * dbl)) : fin l ->
  exists r, power_available lg M D ph o w after n l = Ok r.
Proof.
  intros F. unfold power_available, power_survivors.
  destruct (up_to_saturation_ok (margin o) (if pruning o then Some after else None) l F) as (r1 & -> & F1). cbn [bind].
  destruct (from_saturation_ok o w (if pruning o then Some (cap n 50) else None) r1 F1) as (r2 & -> & F2). cbn [bind].
  destruct r2; [|apply post_ok].
  destruct (up_to_saturation_ok (margin o) None l F) as (r3 & -> & F3). cbn [bind].
  assert (X : exists x, match r3 with
            | [] => if Qlt_bool 1 (margin o)
                    then bind (up_to_saturation lg M D ph 1 None l) (fun r => Ok (r, match r with [] => false | _ => true end))
                    else Ok (r3, false)
            | _ => Ok (r3, false)
            end = Ok x /\ fin (fst x)).
  { destruct r3; [|eauto]. destruct (Qlt_bool 1 (margin o)); [|eauto].
    destruct (up_to_saturation_ok 1 None l F) as (r4 & -> & F4). cbn [bind]. eauto. }
  destruct X as (x & -> & Fx). cbn [bind].
  destruct (from_saturation_ok o w None (fst x) Fx) as (r5 & -> & F5). cbn [bind]. apply post_ok.
Qed.

Lemma losses_or_all_ok w (l : list (M * dbl)) : fin l ->
  exists r, losses_or_all lg M D ph w l = Ok r /\ fin r.
Proof.
  intros F. unfold losses_or_all.
  destruct (losses_filter_ok _ (cannot_score_losses M D ph) w _ (s_losses S) F) as (r & -> & K). cbn [bind].
  destruct r; eauto.
Qed.
Lemma suppression_available_ok o w n (l : list (M * dbl)) : fin l ->
  exists r, suppression_available lg M D ph o w n l = Ok r.
Proof.
  intros F. unfold suppression_available, suppression_survivors.
  set (l0 := if differential_choke M D ph then _ else l).
  assert (F0 : fin l0).
  { unfold l0. destruct (differential_choke M D ph); [|exact F].
    eapply fin_in; [|exact F]. intros x Hx. now apply filter_In in Hx. }
  destruct (skippable_filter_ok _ EFFICIENCY (1 # 1000) l0 (s_impedance S) F0) as (r1 & -> & F1). cbn [bind].
  destruct (turn_count_filter_ok _ 1 r1 (s_turns S) F1) as (r2 & -> & F2). cbn [bind].
  destruct (saturation_filter_ok _ _ (s_saturation S (margin o)) (fin_cut true (cap n 20) _ F2)) as (r3 & -> & F3). cbn [bind].
  destruct (gate_filter_ok _ false COST (weight_or_zero w COST) _ (s_cost S) F3) as (r4 & -> & F4). cbn [bind].
  destruct (gate_filter_ok _ false DIMENSIONS (weight_or_zero w DIMENSIONS) _ (s_dimensions S) F4) as (r5 & -> & F5). cbn [bind].
  destruct (gate_filter_ok _ true EFFICIENCY (weight_or_zero w EFFICIENCY) _ (s_inductance S) F5) as (r6 & -> & F6). cbn [bind].
  destruct (losses_or_all_ok (weight_or_zero w EFFICIENCY) _ F6) as (r7 & -> & F7). cbn [bind].
  apply post_ok.
Qed.

Lemma tail_ok o w (l : list (M * dbl)) : fin l ->
  exists r, (if temperature_filter o
    then skippable_filter lg M (temperature M D ph) EFFICIENCY (weight_or_one w EFFICIENCY) l
    else Ok l) = Ok r /\ fin r.
Proof.
  intros F. destruct (temperature_filter o); [|eauto]. apply skippable_filter_ok; [apply (s_temperature S)|exact F].
Qed.
Lemma ferrite_stage_ok o w n (l : list (M * dbl)) : fin l ->
  exists r, ferrite_stage lg M D ph o w n l = Ok r /\ fin r.
Proof.
  intros F. unfold ferrite_stage. destruct l as [|x t] eqn:L; [|rewrite <- L in *].
  { exists []. split; [reflexivity|constructor]. }
  destruct (size_all_ok _ l (s_gap S) F) as (r1 & -> & F1). cbn [bind].
  destruct (gate_filter_ok _ true EFFICIENCY (weight_or_one w EFFICIENCY) _ (s_early S) F1) as (r2 & -> & F2). cbn [bind].
  destruct (gate_filter_ok _ false DIMENSIONS (weight_or_one w DIMENSIONS) _ (s_dimensions S) F2) as (r3 & -> & F3). cbn [bind].
  destruct (s_ferrite S) as (f & ->). cbn [bind].
  destruct (size_all_ok _ _ (s_size S (margin o)) (fan_out_fin f _ F3)) as (r4 & -> & F4). cbn [bind].
  destruct (reject_ok _ _ (s_fringing S) F4) as (r5 & -> & F5). cbn [bind].
  destruct (gate_filter_ok _ true EFFICIENCY ((1 # 10) * weight_or_one w EFFICIENCY) _ (s_inductance S) F5) as (r6 & -> & F6). cbn [bind].
  destruct (saturation_filter_ok _ _ (s_saturation S (margin o)) F6) as (r7 & -> & F7). cbn [bind].
  destruct (losses_filter_ok _ (cannot_score_losses M D ph) (weight_or_one w EFFICIENCY) _ (s_losses S) (fin_cut (pruning o) (cap n 50) _ F7)) as (r8 & -> & F8).
  cbn [bind]. now apply tail_ok.
Qed.
Lemma powder_stage_ok o w n (l : list (M * dbl)) : fin l ->
  exists r, powder_stage lg M D ph o w n l = Ok r /\ fin r.
Proof.
  intros F. unfold powder_stage. destruct l as [|x t] eqn:L; [|rewrite <- L in *].
  { exists []. split; [reflexivity|constructor]. }
  destruct (s_powder S) as (f & ->). cbn [bind].
  destruct (gate_filter_ok _ true EFFICIENCY 1 _ (s_energy S (margin o)) (fan_out_fin f _ F)) as (r2 & -> & F2). cbn [bind].
  destruct (gate_filter_ok _ false DIMENSIONS (weight_or_one w DIMENSIONS) _ (s_dimensions S) F2) as (r3 & -> & F3). cbn [bind].
  destruct (size_all_ok _ _ (s_size S (margin o)) (fin_cut (pruning o) (cap n 50) _ F3)) as (r4 & -> & F4). cbn [bind].
  destruct (gate_filter_ok _ true EFFICIENCY ((1 # 10) * weight_or_one w EFFICIENCY) _ (s_inductance S) F4) as (r6 & -> & F6). cbn [bind].
  destruct (saturation_filter_ok _ _ (s_saturation S (margin o)) F6) as (r7 & -> & F7). cbn [bind].
  destruct (losses_filter_ok _ (cannot_score_losses M D ph) (weight_or_one w EFFICIENCY) _ (s_losses S) (fin_cut (pruning o) (cap n 50) _ F7)) as (r8 & -> & F8).
  cbn [bind]. now apply tail_ok.
Qed.
Lemma standard_power_ok o w after n (l : list (M * dbl)) : fin l ->
  exists r, standard_power lg M D ph o w after n l = Ok r.
Proof.
  intros F. unfold standard_power, standard_survivors.
  destruct (gate_filter_ok _ false EFFICIENCY 1 _ (s_area S (margin o)) F) as (r1 & -> & F1). cbn [bind].
  assert (Ff : forall g, fin (cut (pruning o) after (filter g r1))).
  { intros g. apply fin_cut. eapply fin_in; [|exact F1]. intros y Hy. now apply filter_In in Hy. }
  destruct (ferrite_stage_ok o w n _ (Ff (fun x => negb (is_toroidal M D ph (fst x))))) as (r2 & -> & F2). cbn [bind].
  assert (X : exists x, (if powder_wanted M D ph
     then powder_stage lg M D ph o w n (cut (pruning o) after (filter (fun x => is_toroidal M D ph (fst x)) r1))
     else Ok []) = Ok x).
  { destruct (powder_wanted M D ph); [|eauto].
    destruct (powder_stage_ok o w n _ (Ff (fun x => is_toroidal M D ph (fst x)))) as (r3 & -> & _). eauto. }
  destruct X as (x & ->). cbn [bind]. apply post_ok.
Qed.
Lemma standard_suppression_ok o w n (l : list (M * dbl)) : fin l ->
  exists r, standard_suppression lg M D ph o w n l = Ok r.
Proof.
  intros F. unfold standard_suppression. destruct (s_choke S) as (f & ->). cbn [bind].
  destruct (size_all_ok _ _ (s_size S (margin o)) (fan_out_fin f _ F)) as (r1 & -> & F1). cbn [bind].
  destruct (skippable_filter_ok _ EFFICIENCY (1 # 1000) _ (s_impedance S) F1) as (r2 & -> & F2). cbn [bind].
  destruct (gate_filter_ok _ false COST (weight_or_one w COST) _ (s_cost S) F2) as (r4 & -> & F4). cbn [bind].
  destruct (gate_filter_ok _ false DIMENSIONS (weight_or_one w DIMENSIONS) _ (s_dimensions S) F4) as (r5 & -> & F5). cbn [bind].
  destruct (gate_filter_ok _ true EFFICIENCY (weight_or_one w EFFICIENCY) _ (s_inductance S) F5) as (r6 & -> & F6). cbn [bind].
  destruct (losses_or_all_ok (weight_or_one w EFFICIENCY) _ F6) as (r7 & -> & F7). cbn [bind].
  destruct (turn_count_filter_ok _ 1 r7 (s_turns S) F7) as (r8 & -> & F8). cbn [bind].
  apply post_ok.
Qed.
End Progress.
