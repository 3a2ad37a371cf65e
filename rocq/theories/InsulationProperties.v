(** Properties C12, C13, C14 and C16 of the insulation coordination. *)
From Coq Require Import ZArith QArith Qround Qabs List String Bool Lia Lqa Sorting.Sorted.
From Verif Require Import Base QAux InsulationModel InsulationData InsulationProofs.
Import ListNotations.
Open Scope Q_scope.

(** ** C12: the coordination covers every applicable standard *)

(** The four quantities the coordinator answers. *)
Inductive quantity := Withstand | Clearance | Creepage (with_clearance : bool) | Dti.

(** What the coordinator answers, and what the model of one standard answers. *)
Definition required (D : standards_data) (k : quantity) (i : inputs) : outcome Q :=
  match k with
  | Withstand => calculate_withstand_voltage D i
  | Clearance => calculate_clearance D i
  | Creepage b => calculate_creepage_distance D i b
  | Dti => calculate_distance_through_insulation D i
  end.

Definition required_by (D : standards_data) (k : quantity) (i : inputs) (q : requirements)
    (s : standard) : outcome Q :=
  match k, s with
  | Withstand, IEC_606641 => withstand_60664 (d60664 D) i q
  | Withstand, IEC_623681 => withstand_62368 (d62368 D) i q
  | Withstand, IEC_615581 => withstand_61558 (d61558 D) i q
  | Withstand, IEC_603351 => withstand_60335 (d60335 D) i q
  | Clearance, IEC_606641 => clearance_60664 (d60664 D) i q
  | Clearance, IEC_623681 => clearance_62368 (d62368 D) i q
  | Clearance, IEC_615581 => clearance_61558 (d60664 D) (d61558 D) i q
  | Clearance, IEC_603351 => clearance_60335 (d60664 D) (d60335 D) i q
  | Creepage b, IEC_606641 => creepage_60664 (d60664 D) i q b
  | Creepage b, IEC_623681 => creepage_62368 (d62368 D) i q b
  | Creepage b, IEC_615581 => creepage_61558 (d60664 D) (d61558 D) i q b
  | Creepage b, IEC_603351 => creepage_60335 (d60664 D) (d60335 D) i q b
  | Dti, IEC_606641 => dti_60664 i
  | Dti, IEC_623681 => dti_62368 i q
  | Dti, IEC_615581 => dti_61558 (d61558 D) i q true
  | Dti, IEC_603351 => dti_60335 (d60335 D) i q
  end.

(** The same design with another list of standards. *)
Definition with_standards (i : inputs) (l : list standard) : inputs :=
  match i_insulation i with
  | None => i
  | Some q =>
      mk_inputs
        (Some (mk_requirements (q_type q) l (q_altitude q) (q_cti q) (q_supply q)
                 (q_category q) (q_pollution q)))
        (i_wiring i) (i_sides i) (i_ratios i)
        (i_vrms i) (i_vrms0 i) (i_vpeak i) (i_vpeak0 i) (i_freq i)
  end.

Lemma required_fold : forall D k i q, i_insulation i = Some q ->
  required D k i = fold_standards (required_by D k i q) 0 (q_standards q).
Proof.
  intros D k i q H.
  assert (E : forall f g : standard -> outcome Q, (forall s, f s = g s) ->
    forall l acc, fold_standards f acc l = fold_standards g acc l).
  { intros f g FG. induction l as [|s l IH]; intro acc; [reflexivity|].
    cbn [fold_standards]. rewrite FG. destruct (g s); cbn [bind]; auto. }
  destruct k; cbn [required];
    unfold calculate_withstand_voltage, calculate_clearance, calculate_creepage_distance,
      calculate_distance_through_insulation; rewrite H; apply E; intros []; reflexivity.
Qed.

Theorem C12_covers_every_standard : forall D k i q w,
  i_insulation i = Some q -> required D k i = Ok w ->
  0 <= w /\
  (forall s, In s (q_standards q) -> exists x, required_by D k i q s = Ok x /\ x <= w) /\
  (w == 0 \/ exists s x, In s (q_standards q) /\ required_by D k i q s = Ok x /\ w == x).
Proof.
  intros D k i q w H R. rewrite (required_fold _ _ _ _ H) in R.
  exact (fold_standards_ok _ _ _ _ R).
Qed.

(** It answers exactly when every standard asked for does. *)
Theorem C12_answers_when_all_do : forall D k i q, i_insulation i = Some q ->
  ((exists w, required D k i = Ok w) <->
   (forall s, In s (q_standards q) -> exists x, required_by D k i q s = Ok x)).
Proof.
  intros D k i q H. split.
  - intros (w & R) s I.
    destruct (C12_covers_every_standard _ _ _ _ _ H R) as (_ & A & _).
    destruct (A s I) as (x & E & _). exists x. exact E.
  - intro A. rewrite (required_fold _ _ _ _ H). apply fold_standards_total. exact A.
Qed.

Theorem C12_nothing_asked_nothing_required : forall D k i,
  i_insulation i = None -> required D k i = Ok 0.
Proof.
  intros D k i H. destruct k; cbn [required];
    unfold calculate_withstand_voltage, calculate_clearance, calculate_creepage_distance,
      calculate_distance_through_insulation; rewrite H; reflexivity.
Qed.

Lemma required_by_standards : forall D k i q l s,
  i_insulation i = Some q ->
  required_by D k (with_standards i l)
    (mk_requirements (q_type q) l (q_altitude q) (q_cti q) (q_supply q) (q_category q) (q_pollution q)) s
  = required_by D k i q s.
Proof.
  intros D k i q l s H. unfold with_standards. rewrite H.
  destruct k, s; reflexivity.
Qed.

Lemma with_standards_insulation : forall i q l, i_insulation i = Some q ->
  i_insulation (with_standards i l) =
  Some (mk_requirements (q_type q) l (q_altitude q) (q_cti q) (q_supply q) (q_category q) (q_pollution q)).
Proof. intros i q l H. unfold with_standards. rewrite H. reflexivity. Qed.

Theorem C12_adding_standards_never_lowers : forall D k i q l w w',
  i_insulation i = Some q -> incl (q_standards q) l ->
  required D k i = Ok w -> required D k (with_standards i l) = Ok w' -> w <= w'.
Proof.
  intros D k i q l w w' H I R R'.
  destruct (C12_covers_every_standard _ _ _ _ _ H R) as (_ & _ & C).
  destruct (C12_covers_every_standard _ _ _ _ _ (with_standards_insulation _ _ l H) R') as (P & A & _).
  cbn [q_standards] in A. destruct C as [C|(s & x & IN & E & C)]; [lra|].
  destruct (A s (I s IN)) as (y & F & L). rewrite (required_by_standards _ _ _ _ _ _ H) in F.
  assert (x = y) by congruence. subst. lra.
Qed.

(** The order of the list and repetitions in it do not matter. *)
Theorem C12_only_the_set_matters : forall D k i q l,
  i_insulation i = Some q -> (forall s, In s l <-> In s (q_standards q)) ->
  (forall w, required D k i = Ok w ->
     exists w', required D k (with_standards i l) = Ok w' /\ w' == w) /\
  (forall w', required D k (with_standards i l) = Ok w' ->
     exists w, required D k i = Ok w /\ w == w').
Proof.
  intros D k i q l H I.
  pose proof (with_standards_insulation _ _ l H) as H'.
  pose proof (C12_answers_when_all_do D k _ _ H) as T.
  pose proof (C12_answers_when_all_do D k _ _ H') as T'. cbn [q_standards] in T'.
  assert (BOTH : forall w w', required D k i = Ok w -> required D k (with_standards i l) = Ok w' -> w == w').
  { intros w w' R R'. apply Qle_antisym.
    - exact (C12_adding_standards_never_lowers D k i q l w w' H (fun s J => proj2 (I s) J) R R').
    - destruct (C12_covers_every_standard _ _ _ _ _ H R) as (P & A & _).
      destruct (C12_covers_every_standard _ _ _ _ _ H' R') as (_ & _ & C).
      cbn [q_standards] in C. destruct C as [C|(s & x & IN & E & C)]; [lra|].
      rewrite (required_by_standards _ _ _ _ _ _ H) in E.
      destruct (A s (proj1 (I s) IN)) as (y & F & L). assert (x = y) by congruence. subst. lra. }
  split.
  - intros w R. destruct (proj2 T') as (w' & R').
    + intros s J. rewrite (required_by_standards _ _ _ _ _ _ H).
      apply T; [exists w; exact R | apply I; exact J].
    + exists w'. split; [exact R' | symmetry; apply BOTH; assumption].
  - intros w' R'. destruct (proj2 T) as (w & R).
    + intros s J. rewrite <- (required_by_standards D k i q l s H).
      apply T'; [exists w'; exact R' | apply I; exact J].
    + exists w. split; [exact R | apply BOTH; assumption].
Qed.

(** The summary has each quantity in its place, creepage with the clearance
    included. *)
Theorem C12_summary : forall D i co, calculate_insulation_coordination D i = Ok co ->
  required D Clearance i = Ok (co_clearance co) /\
  required D (Creepage true) i = Ok (co_creepage co) /\
  required D Withstand i = Ok (co_withstand co) /\
  required D Dti i = Ok (co_dti co).
Proof.
  intros D i co H. unfold calculate_insulation_coordination in H. cbn [required].
  destruct (calculate_clearance D i) as [a| | |]; try discriminate. cbn [bind] in H.
  destruct (calculate_creepage_distance D i true) as [b| | |]; try discriminate. cbn [bind] in H.
  destruct (calculate_withstand_voltage D i) as [c| | |]; try discriminate. cbn [bind] in H.
  destruct (calculate_distance_through_insulation D i) as [d| | |]; try discriminate. cbn [bind] in H.
  injection H as <-. repeat split.
Qed.

(** A design under two standards, with the bundled tables. *)
Definition mains : requirements :=
  mk_requirements BASIC [IEC_606641; IEC_623681] 0 GROUP_I 230 OVC_II PD2.
Definition design (q : requirements) (w : option wiring) (vrms vpeak f : Q) : inputs :=
  mk_inputs (Some q) w None 1 vrms vrms vpeak vpeak f.

Example C12_witness : forall skin,
  required (bundled skin) Withstand (design mains (Some WOUND) 230 325 50) = Ok 2500 /\
  required_by (bundled skin) Withstand (design mains (Some WOUND) 230 325 50) mains IEC_623681 = Ok 2000 /\
  exists w, required (bundled skin) Clearance (design mains (Some WOUND) 230 325 50) = Ok w /\ w == 15 # 10000.
Proof.
  intro skin. split; [vm_compute; reflexivity|]. split; [vm_compute; reflexivity|].
  eexists. split; [vm_compute; reflexivity|]. reflexivity.
Qed.

(** ** C13: table interpolation *)

Lemma bracket_line : forall pre r s post x, ascending (pre ++ r :: s :: post) ->
  fst r <= x -> x <= fst s ->
  bracket (pre ++ r :: s :: post) x
    == snd r + (x - fst r) * ((snd s - snd r) / (fst s - fst r)).
Proof.
  induction pre as [|p pre IH]; intros r s post x A L U.
  - cbn [app]. rewrite bracket_cons, (Qle_yes _ _ L), (Qle_yes _ _ U). cbn [andb].
    pose proof (ascending_head _ s _ A (or_introl eq_refl)). unfold lerp. field. lra.
  - assert (LT : fst p < fst r).
    { apply (ascending_head _ _ _ A). apply in_or_app. right. left. reflexivity. }
    pose proof (IH r s post x (ascending_tail _ _ A) L U) as V.
    destruct pre as [|q pre].
    + cbn [app] in *. rewrite (bracket_cons p r).
      rewrite (Qle_yes (fst p) x) by lra. cbn [andb]. dle x (fst r).
      * assert (EX : x == fst r) by lra.
        pose proof (ascending_head _ s _ (ascending_tail _ _ A) (or_introl eq_refl)).
        unfold lerp. rewrite EX. field. lra.
      * exact V.
    + cbn [app] in *. rewrite (bracket_cons p q).
      rewrite (Qle_yes (fst p) x) by lra. cbn [andb].
      assert (LQ : fst q < fst r).
      { apply ascending_tail in A. apply (ascending_head _ _ _ A).
        apply in_or_app. right. left. reflexivity. }
      rewrite (Qle_no x (fst q)) by lra. exact V.
Qed.

Lemma ascending_pair : forall pre r s post, ascending (pre ++ r :: s :: post) -> fst r < fst s.
Proof.
  intros pre r s post A. apply ascending_app_r in A. apply (ascending_head _ _ _ A). left. reflexivity.
Qed.

Lemma first_below : forall (pre : list row) (r : row) post d, ascending (pre ++ r :: post) ->
  fst (hd d (pre ++ r :: post)) <= fst r.
Proof.
  intros [|p pre] r post d A; [apply Qle_refl|]. cbn [app hd].
  assert (fst p < fst r); [|lra].
  apply (ascending_head _ _ _ A). apply in_or_app. right. left. reflexivity.
Qed.

Lemma last_above : forall (pre : list row) (r : row) post d, ascending (pre ++ r :: post) ->
  fst r <= fst (last (pre ++ r :: post) d).
Proof.
  intros pre r post d A.
  assert (E : last (pre ++ r :: post) d = last (r :: post) d).
  { clear A. induction pre as [|p pre IH]; [reflexivity|].
    cbn [app]. destruct (pre ++ r :: post) eqn:F; [destruct pre; discriminate|].
    rewrite last_cons_cons. exact IH. }
  rewrite E. apply ascending_app_r in A. rewrite (last_default _ (r :: post) d r) by discriminate.
  apply ascending_last. exact A.
Qed.

(** Between two neighbouring rows the answer is on the line through them, so it
    lies between their values. *)
Theorem C13_on_the_line_between_rows : forall pre r s post x,
  ascending (pre ++ r :: s :: post) -> fst r <= x -> x <= fst s ->
  exists y, interp (pre ++ r :: s :: post) x = Ok y /\
    y == snd r + (x - fst r) * ((snd s - snd r) / (fst s - fst r)) /\
    (snd r <= snd s -> snd r <= y /\ y <= snd s) /\
    (snd s <= snd r -> snd s <= y /\ y <= snd r).
Proof.
  intros pre r s post x A L U.
  pose proof (bracket_line _ _ _ _ _ A L U) as V.
  pose proof (ascending_pair _ _ _ _ A) as LT.
  exists (bracket (pre ++ r :: s :: post) x).
  assert (P : 0 <= (x - fst r) * ((snd s - snd r) / (fst s - fst r))
              <-> 0 <= (x - fst r) / (fst s - fst r) * (snd s - snd r)).
  { assert (E : (x - fst r) * ((snd s - snd r) / (fst s - fst r))
      == (x - fst r) / (fst s - fst r) * (snd s - snd r)) by (field; lra).
    rewrite E. reflexivity. }
  assert (E : (x - fst r) * ((snd s - snd r) / (fst s - fst r))
      == (x - fst r) / (fst s - fst r) * (snd s - snd r)) by (field; lra).
  destruct (proportion_bounds _ _ _ LT L U) as (Q1 & Q2).
  split; [|split; [exact V|]].
  - pose proof (first_below pre r (s :: post)) as FB.
    pose proof (last_above (pre ++ [r]) s post) as LA.
    rewrite <- app_assoc in LA. cbn [app] in LA.
    destruct (pre ++ r :: s :: post) as [|f u] eqn:EQ; [destruct pre; discriminate|].
    apply interp_inside.
    + specialize (FB f). cbn [hd] in FB. specialize (FB A). lra.
    + specialize (LA f A). lra.
  - set (p := (x - fst r) / (fst s - fst r)) in *. clearbody p.
    split; intro H; rewrite V, E; split; nra.
Qed.

Theorem C13_exact_at_rows : forall (t : table) (r : row), (2 <= List.length t)%nat -> ascending t -> In r t ->
  exists y, interp t (fst r) = Ok y /\ y == snd r.
Proof.
  intros t r L A I. destruct (in_split _ _ I) as (pre & post & ->).
  destruct post as [|s post].
  - destruct pre as [|p pre] using rev_ind; [simpl in L; lia|]. clear IHpre.
    rewrite <- app_assoc in *. cbn [app] in *.
    pose proof (ascending_pair _ _ _ _ A).
    destruct (C13_on_the_line_between_rows pre p r [] (fst r) A) as (y & E & V & _); [lra | lra |].
    exists y. split; [exact E|]. rewrite V. field. lra.
  - pose proof (ascending_pair _ _ _ _ A).
    destruct (C13_on_the_line_between_rows pre r s post (fst r) A) as (y & E & V & _); [lra | lra |].
    exists y. split; [exact E|]. rewrite V. field. lra.
Qed.

Theorem C13_first_value_below_the_table : forall r t x, ascending (r :: t) -> x < fst r ->
  interp (r :: t) x = Ok (snd r).
Proof. intros r t x A H. apply interp_below; [exact H | apply ascending_last; exact A]. Qed.

Theorem C13_last_slope_above_the_table : forall t r s x, fst s < x ->
  interp (t ++ [r; s]) x = Ok ((x - fst s) * ((snd s - snd r) / (fst s - fst r)) + snd s).
Proof. intros t r s x H. apply interp_above. exact H. Qed.

Theorem C13_monotone : forall t x y vx vy,
  (2 <= List.length t)%nat -> ascending t -> nondecreasing t -> x <= y ->
  interp t x = Ok vx -> interp t y = Ok vy -> vx <= vy.
Proof. intros t x y vx vy L A. apply interp_mono. split; assumption. Qed.

(** Together they cover every abscissa: below, between two rows, or above. *)
Theorem C13_every_abscissa_is_covered : forall (t : table) x (d : row), (2 <= List.length t)%nat ->
  x < fst (hd d t) \/ fst (last t d) < x \/
  exists pre r s post, t = pre ++ r :: s :: post /\ fst r <= x /\ x <= fst s.
Proof.
  intros t x d L.
  destruct (Qlt_le_dec x (fst (hd d t))) as [H|H]; [left; exact H|].
  destruct (Qlt_le_dec (fst (last t d)) x) as [K|K]; [right; left; exact K|].
  right. right. destruct (bracket_found t x d L H K) as (pre & r & s & post & E & P & Q & _).
  exists pre, r, s, post. repeat split; assumption.
Qed.

Example C13_witness :
  (exists y, interp (U16 iec62368) 2500 = Ok y /\ y == 107 # 100) /\
  ascending (U16 iec62368) /\ (2 <= List.length (U16 iec62368))%nat.
Proof.
  split; [|split].
  - eexists. split; [vm_compute; reflexivity|]. reflexivity.
  - repeat (constructor; [|repeat constructor]). constructor.
  - vm_compute. lia.
Qed.

(** A table with one row answers its value around the row but not at it. *)
Theorem C13_single_row_refuted : forall x y,
  interp [(x, y)] x = Ok DBL_MAX /\ interp [(x, y)] (x + 1) = Ok y /\ interp [(x, y)] (x - 1) = Ok y.
Proof.
  intros x y. unfold interp. cbn [last fst snd List.length Nat.ltb Nat.leb bracket].
  split; [|split].
  - rewrite Qlt_no by apply Qle_refl. reflexivity.
  - rewrite Qlt_yes by lra. reflexivity.
  - rewrite Qlt_no by lra. rewrite Qlt_yes by lra. reflexivity.
Qed.

(** ** C14: solid insulation at high frequency *)

(** IEC 60664-4, figure 1: the field strength allowed in an insulation of the
    given thickness, in volts per metre. *)
Definition allowed_field (d : Q) : Q :=
  if Qlt_le_dec d (30 # 1000000) then 10000000
  else if Qlt_le_dec (75 # 100000) d then 2000000
  else (250 / (d * 1000000) + (1667 # 1000)) * 1000000.

Definition withstands (d v : Q) : Prop := 0 < d /\ v / d < allowed_field d.

Definition micrometres (k : Z) : Q := inject_Z k * (1 # 1000000).

Lemma withstands_limit : forall k v, (0 < k)%Z -> (withstands (micrometres k) v <-> v < limit k).
Proof.
  intros k v P. pose proof (valid_limit k v P) as V. unfold micrometres, withstands.
  assert (PQ : 1 <= inject_Z k) by (change 1 with (inject_Z 1); rewrite <- Zle_Qle; lia).
  set (d := inject_Z k * (1 # 1000000)) in *.
  assert (PD : 0 < d) by (unfold d; lra).
  unfold electric_field_strength_is_valid in V. unfold allowed_field.
  replace (Qeq_bool d 0) with false in V.
  2: { symmetry. apply not_true_is_false. intro H. apply Qeq_bool_iff in H. lra. }
  assert (DONE : forall a, Qlt_bool (v / d) a = Qlt_bool v (limit k) -> (0 < d /\ v / d < a <-> v < limit k)).
  { intros a Ea. split.
    - intros (_ & H). apply Qlt_true. rewrite <- Ea. now apply Qlt_yes.
    - intro H. split; [exact PD|]. apply Qlt_true. rewrite Ea. now apply Qlt_yes. }
  destruct (Qlt_le_dec d (30 # 1000000)) as [L|L].
  - rewrite (Qlt_yes _ _ L) in V. now apply DONE.
  - rewrite (Qlt_no _ _ L) in V. destruct (Qlt_le_dec (75 # 100000) d) as [M|M].
    + rewrite (Qlt_yes _ _ M) in V. now apply DONE.
    + rewrite (Qlt_no _ _ M) in V. apply DONE. rewrite <- V.
      assert (E : (250 / (d * 1000000) + (1667 # 1000)) * 1000000
        == ((25 # 100) / (d * 1000) + (1667 # 1000)) * 1000000) by (field; lra).
      set (x := (250 / (d * 1000000) + (1667 # 1000)) * 1000000) in *.
      set (y := ((25 # 100) / (d * 1000) + (1667 # 1000)) * 1000000) in *. clearbody x y.
      dlt (v / d) y; [apply Qlt_yes | apply Qlt_no]; lra.
Qed.

Theorem C14_valid_and_minimal : forall v, exists m, (0 < m)%Z /\
  dti_over_30kHz v = Ok (micrometres m) /\
  withstands (micrometres m) v /\
  (forall j, (0 < j < m)%Z -> ~ withstands (micrometres j) v) /\
  (forall j, (m <= j)%Z -> withstands (micrometres j) v).
Proof.
  intro v. destruct (dti_over_30kHz_spec v) as (m & P & E & L & N).
  exists m. split; [exact P|]. split; [exact E|]. split; [|split].
  - apply withstands_limit; assumption.
  - intros j J W. apply withstands_limit in W; [|lia]. specialize (N j J). lra.
  - intros j J. apply withstands_limit; [lia|]. pose proof (limit_mono m j ltac:(lia)). lra.
Qed.

Theorem C14_monotone : forall v w a b, v <= w ->
  dti_over_30kHz v = Ok a -> dti_over_30kHz w = Ok b -> a <= b.
Proof.
  intros v w a b VW A B.
  destruct (dti_over_30kHz_spec v) as (m & P & E & L & N).
  destruct (dti_over_30kHz_spec w) as (n & P' & E' & L' & N').
  assert (a = inject_Z m * (1 # 1000000)) by congruence.
  assert (b = inject_Z n * (1 # 1000000)) by congruence. subst a b.
  assert (M : (m <= n)%Z).
  { destruct (Z_le_gt_dec m n) as [|G]; [assumption|]. specialize (N n ltac:(lia)). lra. }
  assert (inject_Z m <= inject_Z n) by (rewrite <- Zle_Qle; lia). lra.
Qed.

(** The requirement of the standards is that thickness rounded up to 10 um, so
    it withstands the voltage too. *)
Theorem C14_requirement_withstands : forall i d, 30000 < i_freq i -> dti_60664 i = Ok d ->
  exists k, (0 < k)%Z /\ d == micrometres (10 * k) /\ withstands (micrometres (10 * k)) (i_vrms i).
Proof.
  intros i d F H. unfold dti_60664 in H.
  change maximum_standard_frequency with 30000 in H. rewrite (Qlt_yes _ _ F) in H.
  destruct (C14_valid_and_minimal (i_vrms i)) as (m & P & E & W & _ & U).
  rewrite E in H. cbn [bind] in H.
  assert (M0 : 0 <= micrometres m) by (apply Qlt_le_weak; apply W).
  assert (EC : cmax 0 (micrometres m) == micrometres m).
  { apply Qle_antisym; [apply cmax_lub; lra | apply cmax_ge_r]. }
  assert (EK : Qceiling (cmax 0 (micrometres m) * p10 5) = Qceiling (inject_Z m / 10)).
  { apply Qceiling_comp. rewrite EC. unfold micrometres.
    change (p10 5) with 100000. field. }
  set (k := Qceiling (inject_Z m / 10)) in *.
  destruct (Qceiling_bounds (inject_Z m / 10)) as (B1 & B2). fold k in B1, B2.
  assert (T : 10 * (inject_Z m / 10) == inject_Z m) by field.
  set (h := inject_Z m / 10) in *. clearbody h.
  assert (K : inject_Z m <= inject_Z (10 * k))
    by (rewrite inject_Z_mult; change (inject_Z 10) with 10; lra).
  rewrite <- Zle_Qle in K.
  exists k. split; [lia|]. split.
  - assert (d = ceilFloat (cmax 0 (micrometres m)) 5) by congruence. subst d.
    unfold ceilFloat. rewrite EK. unfold micrometres. rewrite inject_Z_mult.
    change (p10 5) with 100000. change (inject_Z 10) with 10. field.
  - apply U. exact K.
Qed.

Example C14_witness : dti_over_30kHz 1000 = Ok (micrometres 450) /\
  withstands (micrometres 450) 1000 /\ ~ withstands (micrometres 449) 1000.
Proof.
  split; [vm_compute; reflexivity|]. split.
  - split; vm_compute; reflexivity.
  - intros (_ & H). vm_compute in H. discriminate.
Qed.

(** ** C16: creepage and clearance *)

Theorem C16_creepage_covers_clearance_62368 : forall D i q c cl,
  required_by D (Creepage true) i q IEC_623681 = Ok c ->
  required_by D Clearance i q IEC_623681 = Ok cl -> cl <= c.
Proof.
  intros D i q c cl HC HL. cbn [required_by] in *. unfold creepage_62368 in HC.
  destruct (is_printed (i_wiring i)) eqn:W.
  - unfold clearance_62368 in HL. rewrite W in HL. rewrite HL in HC. injection HC as <-. apply Qle_refl.
  - rewrite HL in HC. cbn [bind] in HC.
    match type of HC with bind ?m _ = _ => destruct m as [x| | |]; try discriminate end.
    cbn [bind] in HC. injection HC as <-. apply cmax_ge_r.
Qed.

Lemma ceilFloat_ge : forall x d, x <= ceilFloat x d.
Proof.
  intros x d. unfold ceilFloat. rewrite (Qle_div_iff _ _ _ (p10_pos d)).
  apply Qceiling_bounds.
Qed.

Lemma roundFloat_near : forall x d, x - (1 # 2) / p10 d <= roundFloat x d <= x + (1 # 2) / p10 d.
Proof.
  intros x d. pose proof (p10_pos d) as P. unfold roundFloat.
  pose proof (qround_bounds (x * p10 d)) as (B1 & B2).
  assert (E1 : x - (1 # 2) / p10 d == (x * p10 d - (1 # 2)) / p10 d) by (field; lra).
  assert (E2 : x + (1 # 2) / p10 d == (x * p10 d + (1 # 2)) / p10 d) by (field; lra).
  rewrite E1, E2. split.
  - rewrite (Qle_div_iff _ _ _ P).
    assert (E : (x * p10 d - (1 # 2)) / p10 d * p10 d == x * p10 d - (1 # 2)) by (field; lra).
    rewrite E. lra.
  - rewrite (Qdiv_le_iff _ _ _ P).
    assert (E : (x * p10 d + (1 # 2)) / p10 d * p10 d == x * p10 d + (1 # 2)) by (field; lra).
    rewrite E. lra.
Qed.

Theorem C16_creepage_covers_clearance_61558 : forall D i q c cl,
  required_by D (Creepage true) i q IEC_615581 = Ok c ->
  required_by D Clearance i q IEC_615581 = Ok cl -> cl <= c.
Proof.
  intros D i q c cl HC HL. cbn [required_by] in *. unfold creepage_61558 in HC.
  destruct (check_supply q) as [u| | |] eqn:S; try discriminate. cbn [bind] in HC.
  destruct (class_eqb (q_type q) FUNCTIONAL) eqn:F.
  - unfold clearance_61558 in HL. rewrite S in HL. cbn [bind] in HL. rewrite F in HL.
    injection HC as <-. injection HL as <-. apply Qle_refl.
  - rewrite HL in HC.
    match type of HC with bind ?m _ = _ => destruct m as [x| | |]; try discriminate end.
    cbn [bind] in HC.
    match type of HC with bind ?m _ = _ => destruct m as [y| | |]; try discriminate end.
    cbn [bind] in HC. injection HC as <-.
    eapply Qle_trans; [apply (cmax_ge_r y cl) | apply ceilFloat_ge].
Qed.

(** IEC 60335 and, at pollution degree 3, IEC 60664: down to the rounding of
    the result to 10 um. *)
Theorem C16_creepage_covers_clearance_60335_partial : forall D i q c cl,
  required_by D (Creepage true) i q IEC_603351 = Ok c ->
  required_by D Clearance i q IEC_603351 = Ok cl -> cl <= c + micrometres 5.
Proof.
  intros D i q c cl HC HL. cbn [required_by] in *. unfold creepage_60335 in HC. rewrite HL in HC.
  match type of HC with bind ?m _ = _ => destruct m as [x| | |]; try discriminate end.
  cbn [bind] in HC. injection HC as <-.
  pose proof (roundFloat_near (cmax x cl) 5) as (B & _).
  change ((1 # 2) / p10 5) with ((1 # 2) / 100000) in B.
  assert (E : (1 # 2) / 100000 == micrometres 5) by reflexivity.
  pose proof (cmax_ge_r x cl). lra.
Qed.

Theorem C16_creepage_covers_clearance_60664_partial : forall D i q c cl,
  q_pollution q = PD3 ->
  required_by D (Creepage true) i q IEC_606641 = Ok c ->
  required_by D Clearance i q IEC_606641 = Ok cl -> cl <= c + micrometres 5.
Proof.
  intros D i q c cl P HC HL. cbn [required_by] in *. unfold creepage_60664 in HC.
  rewrite P in HC. cbn [pd_eqb orb] in HC. rewrite HL in HC.
  match type of HC with bind ?m _ = _ => destruct m as [x1| | |]; try discriminate end.
  cbn [bind] in HC.
  match type of HC with bind ?m _ = _ => destruct m as [x2| | |]; try discriminate end.
  cbn [bind] in HC.
  match type of HC with bind ?m _ = _ => destruct m as [x3| | |]; try discriminate end.
  cbn [bind negb andb] in HC. injection HC as <-.
  match goal with |- _ <= roundFloat (cmax ?a ?b) 5 + _ =>
    pose proof (roundFloat_near (cmax a b) 5) as (B & _); pose proof (cmax_ge_r a b) end.
  change ((1 # 2) / p10 5) with ((1 # 2) / 100000) in B.
  assert (E : (1 # 2) / 100000 == micrometres 5) by reflexivity. lra.
Qed.

(** At pollution degrees 1 and 2 IEC 60664 keeps the creepage distance as soon
    as it exceeds the clearance of table F.2 alone, so the clearance for the
    altitude can be the larger: 2.22 mm against 2 mm at 5000 m. *)
Theorem C16_below_clearance_60664_refuted : forall skin, exists i q c cl,
  i_insulation i = Some q /\
  required_by (bundled skin) (Creepage true) i q IEC_606641 = Ok c /\
  required_by (bundled skin) Clearance i q IEC_606641 = Ok cl /\
  c == 2 # 1000 /\ cl == 222 # 100000.
Proof.
  intro skin.
  set (q := mk_requirements BASIC [IEC_606641] 5000 GROUP_I 230 OVC_II PD2).
  set (i := design q (Some WOUND) 230 325 50).
  exists i, q. eexists. eexists. split; [reflexivity|].
  split; [vm_compute; reflexivity|]. split; [vm_compute; reflexivity|]. split; reflexivity.
Qed.

(** The rounding of IEC 60335 can fall below the clearance. *)
Theorem C16_rounding_60335_refuted : forall skin, exists i q c cl,
  i_insulation i = Some q /\
  required_by (bundled skin) (Creepage true) i q IEC_603351 = Ok c /\
  required_by (bundled skin) Clearance i q IEC_603351 = Ok cl /\
  c < cl.
Proof.
  intro skin.
  set (q := mk_requirements BASIC [IEC_603351] 2400 GROUP_I 230 OVC_II PD1).
  set (i := design q (Some WOUND) 230 325 50).
  exists i, q. eexists. eexists. split; [reflexivity|].
  split; [vm_compute; reflexivity|]. split; [vm_compute; reflexivity|]. reflexivity.
Qed.

Example C16_witness : forall skin, exists c cl,
  required_by (bundled skin) (Creepage true) (design mains (Some WOUND) 230 325 50) mains IEC_623681 = Ok c /\
  required_by (bundled skin) Clearance (design mains (Some WOUND) 230 325 50) mains IEC_623681 = Ok cl /\
  0 < cl.
Proof.
  intro skin. eexists. eexists. split; [vm_compute; reflexivity|].
  split; [vm_compute; reflexivity|]. reflexivity.
Qed.

Print Assumptions C12_only_the_set_matters.
Print Assumptions C12_adding_standards_never_lowers.
Print Assumptions C13_on_the_line_between_rows.
Print Assumptions C13_monotone.
Print Assumptions C14_requirement_withstands.
Print Assumptions C16_creepage_covers_clearance_61558.
Print Assumptions C16_below_clearance_60664_refuted.
