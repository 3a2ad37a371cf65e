(** C40: what compressing a waveform keeps. *)
From Coq Require Import ZArith QArith Qabs List String Bool Arith Lia Lqa.
From Verif Require Import Base QAux WaveModel WaveProofs WaveProperties.
Import ListNotations.
Open Scope Q_scope.
Open Scope outcome_scope.

(** * Vocabulary *)

(** The sample that closes the period: the first value again, one step after the
    last sample. *)
Definition closing (pts : list point) : point :=
  let times := map fst pts in
  let n := List.length times in
  (nth (n - 1) times 0 + (nth (n - 1) times 0 - nth (n - 2) times 0), snd (hd (0, 0) pts)).

Definition closed (pts : list point) : list point := pts ++ [closing pts].

(** [sub l m]: [l] is [m] with some elements left out. *)
Inductive sub {A : Type} : list A -> list A -> Prop :=
| sub_nil : sub [] []
| sub_skip : forall x l m, sub l m -> sub l (x :: m)
| sub_keep : forall x l m, sub l m -> sub (x :: l) (x :: m).

Definition slope (p q : point) : Q := (snd q - snd p) / (fst q - fst p).

(** A change of slope the tolerance does not absorb: more than one percent, or,
    after a flat stretch, a slope that is not flat. *)
Definition significant (before after : Q) : Prop :=
  (1 # 1000000000 < Qabs before /\ (1 # 100) * Qabs before < Qabs (after - before)) \/
  (Qabs before <= 1 # 1000000000 /\ 1 # 1000000000 < Qabs after).

(** [q] is a corner of the polyline through [p], [q] and [r]. *)
Definition corner_at (p q r : point) : Prop :=
  fst p == fst q \/ fst q == fst r \/ significant (slope p q) (slope q r).

(** [r] lies on the straight segment from [a] to [b]. *)
Definition on_segment (a b r : point) : Prop :=
  r = a \/ r = b \/
  (fst a < fst b /\ fst a <= fst r /\ fst r <= fst b /\
   snd r == on_line (snd a) (snd b) ((fst r - fst a) / (fst b - fst a))).

Definition on_polyline (pts : list point) (r : point) : Prop :=
  exists l a b m, pts = l ++ a :: b :: m /\ on_segment a b r.

(** Every sample is a corner or lies exactly on a straight stretch. *)
Definition straight_between_corners (pts : list point) : Prop :=
  forall l p q r m, pts = l ++ p :: q :: r :: m -> corner_at p q r \/ slope p q == slope q r.

(** * Lemmas *)

Lemma emits_corner : forall p q r,
  emits (slope_between p q) (slope_between q r) = true <-> corner_at p q r.
Proof.
  intros p q r. unfold emits, slope_between, corner_at.
  destruct (Qeq_bool (fst r) (fst q)) eqn:E1.
  - apply Qeq_bool_iff in E1. split; [intros _; right; left; symmetry; exact E1|reflexivity].
  - apply Qeq_bool_neq in E1. destruct (Qeq_bool (fst q) (fst p)) eqn:E2.
    + apply Qeq_bool_iff in E2. split; [intros _; left; symmetry; exact E2|reflexivity].
    + apply Qeq_bool_neq in E2. fold (slope p q) (slope q r).
      set (a := slope p q). set (b := slope q r). unfold significant.
      destruct (Qlt_bool (1 # 1000000000) (Qabs a)) eqn:F; qb.
      * assert (NZ : ~ a == 0) by (intros Z; rewrite Z in F; discriminate).
        assert (PA : 0 < Qabs a) by (apply Qlt_trans with (1 # 1000000000); [reflexivity|exact F]).
        assert (D : Qabs ((b - a) / a) == Qabs (b - a) / Qabs a).
        { unfold Qdiv. rewrite Qabs_Qmult, Qabs_Qinv. reflexivity. }
        rewrite Qlt_bool_iff, D, (Qlt_div_iff _ _ _ PA). split.
        -- intros H. right. right. left. split; assumption.
        -- intros [H|[H|[[_ H]|[H _]]]]; [| |exact H|lra].
           ++ symmetry in H. contradiction.
           ++ symmetry in H. contradiction.
      * rewrite Qlt_bool_iff. split.
        -- intros H. right. right. right. split; assumption.
        -- intros [H|[H|[[H _]|[_ H]]]]; [| |lra|exact H].
           ++ symmetry in H. contradiction.
           ++ symmetry in H. contradiction.
Qed.

Lemma compress_loop_cons : forall prev p q l, compress_loop prev (p :: q :: l) =
  (if emits prev (slope_between p q) then [p] else []) ++ compress_loop (slope_between p q) (q :: l).
Proof. reflexivity. Qed.

Lemma emits_none : forall s, emits None s = true.
Proof. intros [s|]; reflexivity. Qed.

Lemma compress_points : forall pts label, (2 <= List.length pts)%nat ->
  compress_waveform (of_points pts label) =
  Ok (of_points (compress_loop None (closed pts) ++ [closing pts]) label).
Proof.
  intros pts label L. unfold compress_waveform, of_points. cbn [w_data w_time w_label].
  rewrite !map_length. destruct (Nat.ltb_spec (List.length pts) 2) as [B|_]; [lia|].
  rewrite (idx_nth (map snd pts) 0) by (rewrite map_length; lia).
  rewrite (idx_nth (map fst pts) (List.length pts - 1)) by (rewrite map_length; lia).
  rewrite (idx_nth (map fst pts) (List.length pts - 2)) by (rewrite map_length; lia).
  cbn [bind].
  assert (C : closing pts = (nth (List.length pts - 1) (map fst pts) 0 +
     (nth (List.length pts - 1) (map fst pts) 0 - nth (List.length pts - 2) (map fst pts) 0),
     nth 0 (map snd pts) 0)).
  { unfold closing. rewrite map_length. destruct pts; [cbn in L; lia|reflexivity]. }
  assert (M1 : map fst pts ++ [fst (closing pts)] = map fst (closed pts))
    by (unfold closed; rewrite map_app; reflexivity).
  assert (M2 : map snd pts ++ [snd (closing pts)] = map snd (closed pts))
    by (unfold closed; rewrite map_app; reflexivity).
  rewrite C in M1, M2 |- *. cbn [fst snd] in M1, M2. rewrite M1, M2, points_of_points. cbn [bind].
  reflexivity.
Qed.

Lemma loop_sub : forall l prev, sub (compress_loop prev l) (removelast l).
Proof.
  induction l as [|p l IH]; intros prev; [constructor|].
  destruct l as [|q l]; [constructor|].
  rewrite compress_loop_cons. change (removelast (p :: q :: l)) with (p :: removelast (q :: l)).
  destruct (emits prev (slope_between p q)); cbn [app]; constructor; apply IH.
Qed.

Lemma loop_app : forall l prev p q m,
  compress_loop prev (l ++ p :: q :: m) =
  compress_loop prev (l ++ [p]) ++
  compress_loop (match l with [] => prev | _ => slope_between (last l p) p end) (p :: q :: m).
Proof.
  induction l as [|a l IH]; intros prev p q m.
  - cbn [app]. reflexivity.
  - destruct l as [|b l].
    + cbn [app]. rewrite !compress_loop_cons. cbn [last]. cbn [compress_loop]. rewrite app_nil_r. reflexivity.
    + change ((a :: b :: l) ++ p :: q :: m) with (a :: b :: (l ++ p :: q :: m)).
      change ((a :: b :: l) ++ [p]) with (a :: b :: (l ++ [p])).
      rewrite !compress_loop_cons, <- app_assoc. f_equal.
      change (b :: l ++ p :: q :: m) with ((b :: l) ++ p :: q :: m).
      change (b :: l ++ [p]) with ((b :: l) ++ [p]).
      rewrite (IH (slope_between a b) p q m). f_equal.
Qed.

Lemma removelast_snoc : forall (A : Type) (l : list A) x, removelast (l ++ [x]) = l.
Proof. intros. apply removelast_last. Qed.

(** * C40 Waveform compression keeps the waveform *)

Section C40.
Variable pts : list point.
Variable label : option wave_label.
Hypothesis enough : (2 <= List.length pts)%nat.

(** The result starts with the first sample, ends with the closing one, and keeps
    the label. *)
Theorem C40_first_and_closing : exists kept,
  compress_waveform (of_points pts label) = Ok (of_points (kept ++ [closing pts]) label) /\
  hd (0, 0) kept = hd (0, 0) pts /\ kept <> [].
Proof.
  exists (compress_loop None (closed pts)). split; [apply compress_points; exact enough|].
  destruct pts as [|p [|q l]]; [cbn in enough; lia|cbn in enough; lia|].
  unfold closed. cbn [app]. rewrite compress_loop_cons, emits_none. split; [reflexivity|discriminate].
Qed.

(** Before the closing sample there are only samples of the original, in their
    order and each at most as often. *)
Theorem C40_only_samples_in_order : forall out,
  compress_waveform (of_points pts label) = Ok out ->
  exists kept, out = of_points (kept ++ [closing pts]) label /\ sub kept pts.
Proof.
  intros out H. rewrite (compress_points pts label enough) in H. injection H as <-.
  exists (compress_loop None (closed pts)). split; [reflexivity|].
  pose proof (loop_sub (closed pts) None) as S. unfold closed in S.
  rewrite removelast_snoc in S. exact S.
Qed.

(** Where the slope changes beyond the tolerance the sample is kept, and where it
    does not the sample is left out; samples before it stay before it. *)
Theorem C40_corner_kept_iff : forall before p q r after out,
  closed pts = before ++ p :: q :: r :: after ->
  compress_waveform (of_points pts label) = Ok out ->
  exists kept1 kept2,
    sub kept1 (before ++ [p]) /\ sub kept2 (removelast (r :: after)) /\
    (corner_at p q r -> out = of_points (kept1 ++ q :: kept2 ++ [closing pts]) label) /\
    (~ corner_at p q r -> out = of_points (kept1 ++ kept2 ++ [closing pts]) label).
Proof.
  intros before p q r after out E H. rewrite (compress_points pts label enough) in H. injection H as <-.
  rewrite E.
  exists (compress_loop None ((before ++ [p]) ++ [q])), (compress_loop (slope_between q r) (r :: after)).
  split; [|split; [|split]].
  - pose proof (loop_sub ((before ++ [p]) ++ [q]) None) as S. rewrite removelast_snoc in S. exact S.
  - apply loop_sub.
  - intros C. f_equal.
    replace (before ++ p :: q :: r :: after) with ((before ++ [p]) ++ q :: r :: after)
      by (rewrite <- app_assoc; reflexivity).
    rewrite loop_app.
    assert (LP : last (before ++ [p]) q = p) by apply last_last.
    destruct (before ++ [p]) as [|x y] eqn:B; [destruct before; discriminate|].
    rewrite LP, compress_loop_cons, (proj2 (emits_corner p q r) C), <- app_assoc. reflexivity.
  - intros C. f_equal.
    replace (before ++ p :: q :: r :: after) with ((before ++ [p]) ++ q :: r :: after)
      by (rewrite <- app_assoc; reflexivity).
    rewrite loop_app.
    assert (LP : last (before ++ [p]) q = p) by apply last_last.
    destruct (before ++ [p]) as [|x y] eqn:B; [destruct before; discriminate|].
    rewrite LP, compress_loop_cons.
    destruct (emits (slope_between p q) (slope_between q r)) eqn:EM.
    + apply emits_corner in EM. contradiction.
    + rewrite <- app_assoc. reflexivity.
Qed.
End C40.

(** State of the loop: the last kept point [A], the point [p] it is at, and the
    slope it came with. *)
Definition on_course (prev : option Q) (A p : point) : Prop :=
  match prev with
  | Some k => fst A < fst p /\ snd p == snd A + k * (fst p - fst A)
  | None => True
  end.

Lemma course_start : forall p q, fst p <= fst q -> on_course (slope_between p q) p q.
Proof.
  intros p q O. unfold on_course, slope_between.
  destruct (Qeq_bool (fst q) (fst p)) eqn:E; [exact I|]. apply Qeq_bool_neq in E.
  assert (D : fst p < fst q).
  { apply Qle_lteq in O. destruct O as [O|O]; [exact O|]. symmetry in O. contradiction. }
  split; [exact D|]. field. lra.
Qed.

Lemma on_polyline_cons : forall x l r, on_polyline l r -> on_polyline (x :: l) r.
Proof.
  intros x l r [m [a [b [n [-> H]]]]]. exists (x :: m), a, b, n. split; [reflexivity|exact H].
Qed.

Lemma segment_of_course : forall k A p r, on_course (Some k) A p ->
  fst A <= fst r -> fst r <= fst p -> snd r == snd A + k * (fst r - fst A) -> on_segment A p r.
Proof.
  intros k A p r [L C] R1 R2 R3. right. right. repeat split; try assumption.
  unfold on_line. rewrite R3, C. field. lra.
Qed.

(** The points the loop drops, in terms of the slope it holds. *)
Fixpoint dropped_exactly (prev : option Q) (l : list point) : Prop :=
  match l with
  | p :: ((q :: _) as rest) =>
      (emits prev (slope_between p q) = false ->
        exists k v, prev = Some k /\ slope_between p q = Some v /\ k == v) /\
      dropped_exactly (slope_between p q) rest
  | _ => True
  end.

Lemma last_any : forall (l : list point) a p q, last (a :: l) p = last (a :: l) q.
Proof.
  induction l as [|x l IH]; intros a p q; [reflexivity|]. exact (IH x p q).
Qed.

Lemma loop_on_polyline : forall l p A prev, ordered (p :: l) -> on_course prev A p ->
  dropped_exactly prev (p :: l) ->
  forall r, (In r (p :: l) \/
             (exists k, prev = Some k /\ fst A <= fst r /\ fst r <= fst p /\ snd r == snd A + k * (fst r - fst A))) ->
  on_polyline (A :: compress_loop prev (p :: l) ++ [last (p :: l) p]) r.
Proof.
  induction l as [|q l IH]; intros p A prev O C D r R.
  - exists [], A, p, []. split; [reflexivity|].
    destruct R as [[ -> |[]]|[k [-> [R1 [R2 R3]]]]]; [right; left; reflexivity|].
    exact (segment_of_course k A p r C R1 R2 R3).
  - destruct O as [O1 O2]. destruct D as [D1 D2]. rewrite compress_loop_cons.
    assert (LQ : last (p :: q :: l) p = last (q :: l) q).
    { change (last (p :: q :: l) p) with (last (q :: l) p). apply last_any. }
    rewrite LQ. destruct (emits prev (slope_between p q)) eqn:EM.
    + cbn [app].
      assert (AP : forall s, on_segment A p s ->
        on_polyline (A :: p :: compress_loop (slope_between p q) (q :: l) ++ [last (q :: l) q]) s).
      { intros s S. exists [], A, p. eexists. split; [reflexivity|exact S]. }
      destruct R as [[ -> |R]|[k [-> [R1 [R2 R3]]]]].
      * apply AP. right. left. reflexivity.
      * apply on_polyline_cons. apply IH; [exact O2|apply course_start; exact O1|exact D2|left; exact R].
      * apply AP. exact (segment_of_course k A p r C R1 R2 R3).
    + cbn [app]. destruct (D1 eq_refl) as [k [v [-> [V KV]]]].
      destruct C as [CA CP].
      assert (PQ : fst p < fst q /\ snd q == snd p + v * (fst q - fst p)).
      { pose proof (course_start p q O1) as S. rewrite V in S. exact S. }
      destruct PQ as [PQ1 PQ2].
      apply IH; [exact O2| |exact D2|].
      * rewrite V. split; [lra|]. rewrite PQ2, CP, KV. ring.
      * destruct R as [[ -> |R]|[k' [K' [R1 [R2 R3]]]]].
        -- right. exists v. split; [exact V|]. split; [lra|]. split; [lra|]. rewrite CP, KV. reflexivity.
        -- left. exact R.
        -- injection K' as <-. right. exists v. split; [exact V|]. split; [lra|]. split; [lra|].
           rewrite R3, KV. reflexivity.
Qed.

Lemma loop_area : forall l p A prev, ordered (p :: l) -> on_course prev A p ->
  dropped_exactly prev (p :: l) ->
  area (A :: compress_loop prev (p :: l) ++ [last (p :: l) p]) == area (A :: p :: l).
Proof.
  induction l as [|q l IH]; intros p A prev O C D; [reflexivity|].
  destruct O as [O1 O2]. destruct D as [D1 D2]. rewrite compress_loop_cons.
  assert (LQ : last (p :: q :: l) p = last (q :: l) q).
  { change (last (p :: q :: l) p) with (last (q :: l) p). apply last_any. }
  rewrite LQ. destruct (emits prev (slope_between p q)) eqn:EM.
  - cbn [app]. rewrite area_cons.
    rewrite (IH q p (slope_between p q) O2 (course_start p q O1) D2), (area_cons A p). ring.
  - cbn [app]. destruct (D1 eq_refl) as [k [v [-> [V KV]]]].
    destruct C as [CA CP].
    assert (PQ : fst p < fst q /\ snd q == snd p + v * (fst q - fst p)).
    { pose proof (course_start p q O1) as S. rewrite V in S. exact S. }
    destruct PQ as [PQ1 PQ2].
    rewrite IH; [|exact O2| |exact D2].
    + rewrite (area_cons A q), (area_cons A p), (area_cons p q), PQ2, CP, KV. field.
    + rewrite V. split; [lra|]. rewrite PQ2, CP, KV. ring.
Qed.

Lemma straight_dropped : forall l p q, straight_between_corners (p :: q :: l) ->
  dropped_exactly (slope_between p q) (q :: l).
Proof.
  induction l as [|r l IH]; intros p q S; [exact I|]. split.
  - intros E. destruct (S [] p q r l eq_refl) as [C|C].
    + apply emits_corner in C. congruence.
    + destruct (slope_between p q) as [k|] eqn:K; [|rewrite emits_none in E; discriminate].
      destruct (slope_between q r) as [v|] eqn:V; [|destruct k; discriminate].
      exists k, v. split; [reflexivity|]. split; [reflexivity|].
      unfold slope_between in K, V. destruct (Qeq_bool (fst q) (fst p)); [discriminate|].
      destruct (Qeq_bool (fst r) (fst q)); [discriminate|]. injection K as <-. injection V as <-. exact C.
  - apply IH. intros m a b c n E. apply (S (p :: m) a b c n). cbn [app]. rewrite <- E. reflexivity.
Qed.

(** When every sample is a corner or on an exactly straight stretch, nothing is
    lost: each sample, and the closing one, lies on the compressed polyline. *)
Theorem C40_lossless_on_straight_stretches : forall pts label out,
  (2 <= List.length pts)%nat -> ordered (closed pts) -> straight_between_corners (closed pts) ->
  compress_waveform (of_points pts label) = Ok out ->
  exists kept, out = of_points kept label /\
    (forall p, In p (closed pts) -> on_polyline kept p) /\ area kept == area (closed pts).
Proof.
  intros pts label out L O S H. rewrite (compress_points pts label L) in H. injection H as <-.
  exists (compress_loop None (closed pts) ++ [closing pts]). split; [reflexivity|].
  assert (E : exists p q l, closed pts = p :: q :: l).
  { unfold closed. destruct pts as [|p [|q l]]; [cbn in L; lia|cbn in L; lia|].
    exists p, q. eexists. reflexivity. }
  destruct E as [p [q [l E]]].
  assert (LC : closing pts = last (q :: l) q).
  { assert (X : last (closed pts) q = closing pts) by (unfold closed; apply last_last).
    rewrite <- X, E. reflexivity. }
  rewrite LC, E in *. rewrite compress_loop_cons, emits_none. cbn [app].
  destruct O as [O1 O2].
  pose proof (straight_dropped l p q S) as D. split.
  - intros r [<-|R].
    + destruct (compress_loop (slope_between p q) (q :: l)) as [|x y] eqn:X.
      * exists [], p, (last (q :: l) q), []. split; [reflexivity|left; reflexivity].
      * exists [], p, x, (y ++ [last (q :: l) q]). split; [reflexivity|left; reflexivity].
    + apply loop_on_polyline; [exact O2|apply course_start; exact O1|exact D|left; exact R].
  - exact (loop_area l q p (slope_between p q) O2 (course_start p q O1) D).
Qed.

(** So the average of the compressed waveform is that of the closed one. *)
Theorem C40_average_kept : forall pts label out a b,
  (2 <= List.length pts)%nat -> ordered (closed pts) -> straight_between_corners (closed pts) ->
  first_time pts < last_time pts ->
  compress_waveform (of_points pts label) = Ok out ->
  calculate_waveform_average out = Ok a ->
  calculate_waveform_average (of_points (closed pts) label) = Ok b -> a == b.
Proof.
  intros pts label out a b L O S T H A B.
  destruct (C40_first_and_closing pts label L) as [k [H' [HK NK]]].
  destruct (C40_lossless_on_straight_stretches pts label out L O S H) as [kept [EO [_ EA]]].
  rewrite H in H'. injection H' as H'.
  assert (EK : kept = k ++ [closing pts]).
  { rewrite EO in H'. unfold of_points in H'. injection H' as H1 H2.
    rewrite <- (combine_map kept), <- (combine_map (k ++ [closing pts])), H1, H2. reflexivity. }
  rewrite EO in A. assert (NE : kept <> []) by (rewrite EK; destruct k; discriminate).
  assert (NC : closed pts <> []) by (unfold closed; destruct pts; discriminate).
  rewrite (average_value _ _ _ NE A), (average_value _ _ _ NC B), EA, EK.
  assert (F : first_time (k ++ [closing pts]) = first_time (closed pts)).
  { unfold closed. rewrite (first_time_app k _ NK), (first_time_app pts) by (intros ->; cbn in L; lia).
    unfold first_time. rewrite HK. reflexivity. }
  assert (G : last_time (k ++ [closing pts]) = last_time (closed pts))
    by (unfold closed; rewrite !last_time_app by discriminate; reflexivity).
  rewrite F, G. reflexivity.
Qed.

(** The last sample of the original is not always kept: only its corners are, and
    the closing sample takes its place at the end. *)
Theorem C40_last_sample_refuted : exists pts out kept,
  compress_waveform (of_points pts None) = Ok out /\ out = of_points kept None /\
  (2 <= List.length pts)%nat /\ ~ In (last pts (0, 0)) kept.
Proof.
  exists [(0, 0); (1, 2); (2, 1)].
  eexists. exists [(0, 0); (1, 2); (2 + (2 - 1), 0)].
  split; [vm_compute; reflexivity|]. split; [reflexivity|]. split; [cbn; lia|].
  cbn [last]. intros [H|[H|[H|[]]]]; inversion H.
Qed.

(** The tolerance compares each slope with the one just before, so a slope that
    drifts by less than one percent per sample is never recorded.  An
    exponential rise of 800 samples is reduced to a straight line; a sample in
    its middle is more than half the height of the waveform away from it. *)
Fixpoint drift (n : nat) (t v s : Z) : list point :=
  match n with
  | O => []
  | S n => (inject_Z t, inject_Z v) :: drift n (t + 1) (v + s) (s + s / 100)
  end.

Theorem C40_drift_refuted : exists pts out a b c p,
  compress_waveform (of_points pts None) = Ok out /\
  out = of_points [a; b; c] None /\
  List.length pts = 800%nat /\ In p pts /\
  fst a < fst p /\ fst p < fst b /\
  (forall q, In q pts -> 0 <= snd q /\ snd q <= snd b) /\
  (1 # 2) * snd b <
    on_line (snd a) (snd b) ((fst p - fst a) / (fst b - fst a)) - snd p.
Proof.
  set (l := drift 800 0 0 1000).
  exists l, (of_points [nth 0 l (0, 0); nth 799 l (0, 0); closing l] None),
    (nth 0 l (0, 0)), (nth 799 l (0, 0)), (closing l), (nth 588 l (0, 0)).
  split; [vm_compute; reflexivity|]. split; [reflexivity|].
  split; [vm_compute; reflexivity|].
  split; [apply nth_In; vm_compute; lia|].
  split; [vm_compute; reflexivity|]. split; [vm_compute; reflexivity|].
  split; [|vm_compute; reflexivity].
  intros q Q.
  assert (B : forallb (fun q => Qle_bool 0 (snd q) && Qle_bool (snd q) (snd (nth 799 l (0, 0)))) l = true)
    by (vm_compute; reflexivity).
  rewrite forallb_forall in B. specialize (B q Q). apply andb_prop in B. destruct B as [B1 B2].
  apply Qle_bool_iff in B1. apply Qle_bool_iff in B2. split; assumption.
Qed.

Example C40_witness :
  let pts := [(0, 0); (1, 2); (2, 4); (3, 2)] in
  ordered (closed pts) /\ straight_between_corners (closed pts) /\
  exists out, compress_waveform (of_points pts None) = Ok out /\
    w_data out = [0; 4; 0].
Proof.
  cbn zeta. split; [cbn; lra|]. split.
  - intros l p q r m E.
    destruct l as [|a [|b [|c l]]]; cbn [closed app map closing fst snd hd nth List.length Nat.sub] in E.
    + injection E as <- <- <- _. right. reflexivity.
    + injection E as _ <- <- <- _. left. right. right. left. split; reflexivity.
    + injection E as _ _ <- <- <- _. right. reflexivity.
    + apply (f_equal (@List.length point)) in E. cbn in E. rewrite app_length in E. cbn in E. lia.
  - eexists. split; vm_compute; reflexivity.
Qed.

Print Assumptions C40_first_and_closing.
Print Assumptions C40_corner_kept_iff.
Print Assumptions C40_lossless_on_straight_stretches.
Print Assumptions C40_average_kept.
Print Assumptions C40_drift_refuted.
