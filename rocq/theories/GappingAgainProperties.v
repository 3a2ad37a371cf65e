(** Specification: gaps processed again, cores that carry no gaps, stacked cores. *)
From Coq Require Import ZArith QArith Qabs List Bool String Lia Lqa Arith.
From Verif Require Import Base QAux UtilsNumModel UtilsNumProofs GappingModel GappingProofs
  GappingProperties GappingPlaceProperties.
Import ListNotations.
Open Scope Q_scope.

(** ** Vocabulary *)

(** No two columns stand on the same spot. *)
Definition apart_columns (b : body) : Prop :=
  forall x y, In x (b_columns b) -> In y (b_columns b) ->
    px (c_at x) == px (c_at y) -> pz (c_at x) == pz (c_at y) -> x = y.

(** The same gap, but for the distance to the closest end of the column. *)
Definition same_place (x y : gap) : Prop :=
  g_kind y = g_kind x /\ g_length y = g_length x /\ g_at y = g_at x /\ g_shape y = g_shape x /\
  g_parallel y = g_parallel x /\ g_area y = g_area x /\ g_section y = g_section x.

(** ** The column closest to a point *)

Lemma apart_nonneg : forall p q, 0 <= apart p q.
Proof.
  intros. unfold apart. pose proof (Qabs_nonneg (px p - px q)). pose proof (Qabs_nonneg (pz p - pz q)). lra.
Qed.

Lemma apart_0 : forall p q, apart p q == 0 <-> px p == px q /\ pz p == pz q.
Proof.
  intros p q. unfold apart. pose proof (Qabs_nonneg (px p - px q)) as A.
  pose proof (Qabs_nonneg (pz p - pz q)) as B. split.
  - intro E. assert (X : Qabs (px p - px q) <= 0) by lra. assert (Y : Qabs (pz p - pz q) <= 0) by lra.
    apply Qabs_Qle_condition in X, Y. lra.
  - intros [X Y]. assert (X' : px p - px q == 0) by lra. assert (Y' : pz p - pz q == 0) by lra.
    rewrite X', Y'. reflexivity.
Qed.

Lemma closest_best : forall cs p c d, d <= 0 -> closest cs p (Some (c, d)) = Some c.
Proof.
  intro cs. induction cs as [|x cs IH]; intros p c d D; [reflexivity|]. cbn [closest].
  pose proof (apart_nonneg (c_at x) p). replace (Qlt_bool (apart (c_at x) p) d) with false
    by (symmetry; apply lt_bool_false; lra).
  apply IH. exact D.
Qed.

Lemma closest_in : forall cs p c best,
  In c cs -> apart (c_at c) p == 0 ->
  (forall x, In x cs -> apart (c_at x) p == 0 -> x = c) ->
  (forall x d, best = Some (x, d) -> 0 < d) -> closest cs p best = Some c.
Proof.
  intro cs. induction cs as [|x cs IH]; intros p c best I Z U B; [destruct I|].
  cbn [closest]. destruct I as [<- |I].
  - destruct best as [[y d]|].
    + pose proof (B y d eq_refl). replace (Qlt_bool (apart (c_at x) p) d) with true
        by (symmetry; apply lt_bool_true; lra).
      apply closest_best. lra.
    + apply closest_best. lra.
  - destruct (Qlt_le_dec 0 (apart (c_at x) p)) as [P|P].
    + assert (H : forall best', (forall y d, best' = Some (y, d) -> 0 < d) -> closest cs p best' = Some c).
      { intros best' B'. apply IH; [exact I|exact Z|intros y J; apply U; right; exact J|exact B']. }
      destruct best as [[y d]|].
      * destruct (Qlt_bool (apart (c_at x) p) d); apply H; intros z e E; [inversion E; subst; exact P|exact (B z e E)].
      * apply H. intros z e E. inversion E; subst. exact P.
    + pose proof (apart_nonneg (c_at x) p). assert (X : x = c) by (apply U; [left; reflexivity|lra]). subst x.
      destruct best as [[y d]|].
      * pose proof (B y d eq_refl). replace (Qlt_bool (apart (c_at c) p) d) with true
          by (symmetry; apply lt_bool_true; lra).
        apply closest_best. lra.
      * apply closest_best. lra.
Qed.

(** ** Every gap of an accepted gapping stands on a column *)

Definition stands (b : body) (g : gap) : Prop :=
  exists c p d, In c (b_columns b) /\ px p = px (c_at c) /\ pz p = pz (c_at c) /\
    g = place b c (g_kind g) (g_length g) p d.

Lemma lay_stands : forall b l r, (forall x, In x l -> In (fst x) (b_columns b)) ->
  lay b l = Some r -> Forall (stands b) r.
Proof.
  intros b l r S H. apply lay_some in H as [_ ->]. apply Forall_forall. intros g I.
  apply in_map_iff in I as (x & <- & I). exists (fst x), (c_at (fst x)). eexists.
  split; [apply S; exact I|]. split; [reflexivity|]. split; reflexivity.
Qed.

Lemma wound_stands : forall b c l u, In c (b_columns b) -> wound b c l = Some u -> Forall (stands b) u.
Proof.
  intros b c l u C H. apply wound_some in H as [L N]. apply Forall_forall. intros g I.
  apply In_nth_error in I as [k K].
  assert (KL : (k < List.length l)%nat) by (rewrite <- L; apply nth_error_Some; congruence).
  destruct (nth_error l k) as [x|] eqn:X; [|apply nth_error_None in X; lia].
  destruct (N k x X) as (o & e & A & _). assert (G : g = standing b c x o e) by congruence. subst g.
  exists c. do 2 eexists. split; [exact C|]. split; [|split; [|reflexivity]]; reflexivity.
Qed.

Lemma repeated_fst : forall cs l z x, In x (repeated cs l z) -> In (fst x) cs.
Proof.
  intro cs. induction cs as [|c cs IH]; intros l z x I; [destruct I|].
  destruct l as [|g l]; cbn in I; (destruct I as [<- |I]; [left; reflexivity|right; eapply IH; exact I]).
Qed.

Lemma wound_column_in : forall b c, wound_column b = Some c -> In c (b_columns b).
Proof.
  intros b c H. unfold wound_column, centrals, laterals in H.
  destruct (filter is_central (b_columns b)) as [|x l] eqn:E.
  - destruct (filter (fun c => negb (is_central c)) (b_columns b)) as [|x l] eqn:E2; [discriminate|].
    assert (I : In x (filter (fun c => negb (is_central c)) (b_columns b))) by (rewrite E2; left; reflexivity).
    apply filter_In in I as [I _]. congruence.
  - assert (I : In x (filter is_central (b_columns b))) by (rewrite E; left; reflexivity).
    apply filter_In in I as [I _]. congruence.
Qed.

Lemma return_columns_in : forall b c, In c (return_columns b) -> In c (b_columns b).
Proof.
  intros b c H. unfold return_columns, laterals in H. destruct (centrals b).
  - destruct (filter (fun c => negb (is_central c)) (b_columns b)) as [|x l] eqn:E; [destruct H|].
    assert (I : In c (filter (fun c => negb (is_central c)) (b_columns b))) by (rewrite E; right; exact H).
    apply filter_In in I as [I _]. exact I.
  - apply filter_In in H as [I _]. exact I.
Qed.

Lemma distribute_stands : forall b l r, distribute b l = Ok (true, r) -> Forall (stands b) r.
Proof.
  intros b l r H. unfold distribute in H.
  destruct (Nat.eqb _ 0).
  { apply ok_pair, stored_true in H. eapply lay_stands; [|exact H].
    intros x I. apply in_map_iff in I as (c & <- & I). exact I. }
  destruct (_ && _).
  { apply ok_pair, stored_true in H. eapply lay_stands; [|exact H]. intros x I. eapply repeated_fst; exact I. }
  destruct (_ && _).
  { apply ok_pair, stored_true in H. eapply lay_stands; [|exact H].
    intros [c k] I. apply in_combine_l in I. exact I. }
  destruct (wound_column b) as [c|] eqn:W; [|discriminate]. apply ok_pair, stored_true in H.
  destruct (wound b c _) as [u|] eqn:E; [|discriminate].
  destruct (lay b (returned _ _)) as [v|] eqn:V; [|discriminate].
  assert (R : r = (u ++ v)%list) by congruence. subst r. apply Forall_app. split.
  - eapply wound_stands; [|exact E]. apply wound_column_in. exact W.
  - eapply lay_stands; [|exact V]. intros x I. apply return_columns_in.
    unfold returned in I. destruct (Nat.ltb _ _).
    + apply in_map_iff in I as (y & <- & I). exact I.
    + destruct x as [y k]. apply in_combine_l in I. exact I.
Qed.

(** ** Gaps that have their coordinates *)

Definition placed (l : list gap) (b : body) : Prop :=
  match l with [] => False | g :: _ => g_at g <> None end /\ misaligned b l = false.

Lemma process_placed : forall b l, b_family b = Other -> placed l b ->
  process_gap b l = bind (kept b l) (fun r => Ok (stored l r)).
Proof.
  intros b l F [P M]. unfold process_gap. rewrite F. destruct l as [|g l]; [destruct P|].
  rewrite M. destruct (g_at g); [reflexivity|congruence].
Qed.

Lemma stands_exactly : forall b g, stands b g -> exists p, g_at g = Some p /\ existsb (exactly p) (b_columns b) = true.
Proof.
  intros b g (c & p & d & I & X & Z & E). exists p. split; [rewrite E; reflexivity|].
  apply existsb_exists. exists c. split; [exact I|]. unfold exactly. apply lt_bool_true.
  assert (A : apart (c_at c) p == 0) by (apply apart_0; rewrite X, Z; split; reflexivity).
  rewrite A. unfold Qdiv. rewrite Qmult_0_l. reflexivity.
Qed.

Lemma stands_placed : forall b r, r <> [] -> Forall (stands b) r -> placed r b.
Proof.
  intros b r N F. split.
  - destruct r as [|g r]; [congruence|]. inversion F as [|? ? S ?]; subst.
    destruct (stands_exactly b g S) as (p & P & _). congruence.
  - unfold misaligned. clear N. induction F as [|g r S F IH]; [reflexivity|]. cbn [existsb].
    destruct (stands_exactly b g S) as (p & P & E). rewrite P, E, IH. reflexivity.
Qed.

Lemma kept_stands : forall b r, apart_columns b -> Forall (stands b) r ->
  kept b r = Ok None \/ exists r2, kept b r = Ok (Some r2) /\ Forall2 same_place r r2.
Proof.
  intros b r A F. induction F as [|g r S F IH]; [right; exists []; split; [reflexivity|constructor]|].
  destruct S as (c & p & d & I & X & Z & E).
  assert (P : g_at g = Some p) by (rewrite E; reflexivity).
  assert (C : closest (b_columns b) p None = Some c).
  { apply closest_in; [exact I|apply apart_0; rewrite X, Z; split; reflexivity| |intros; discriminate].
    intros y J Y. apply apart_0 in Y as [Y1 Y2]. apply A; [exact J|exact I| |].
    - rewrite Y1, X. reflexivity.
    - rewrite Y2, Z. reflexivity. }
  cbn [kept]. rewrite P, C. destruct (Qlt_bool _ 0); [left; reflexivity|].
  destruct IH as [IH|(t & T & T2)]; [left; rewrite IH; reflexivity|]. right. rewrite T. cbn [bind].
  eexists. split; [reflexivity|]. constructor; [|exact T2]. rewrite E. cbn.
  repeat split; reflexivity.
Qed.

Lemma kept_keeps : forall b l r, kept b l = Ok (Some r) ->
  Forall2 (fun x y => g_kind y = g_kind x /\ g_length y = g_length x /\ g_at y = g_at x) l r.
Proof.
  intros b l. induction l as [|g l IH]; intros r H; cbn [kept] in H.
  - assert (r = []) by congruence. subst r. constructor.
  - destruct (g_at g) as [p|] eqn:P; [|discriminate].
    destruct (closest _ p None) as [c|]; [|discriminate].
    destruct (Qlt_bool _ 0); [discriminate|].
    destruct (kept b l) as [[t|]| | |]; cbn [bind] in H; try discriminate.
    assert (E : r = place b c (g_kind g) (g_length g) p
                 (roundFloat (c_height c / 2 - Qabs (py p) - g_length g / 2) 9) :: t) by congruence.
    subst r. constructor; [|apply IH; reflexivity]. split; [reflexivity|]. split; [reflexivity|].
    rewrite P. reflexivity.
Qed.

Lemma misaligned_keeps : forall b l m,
  Forall2 (fun x y => g_kind y = g_kind x /\ g_length y = g_length x /\ g_at y = g_at x) l m ->
  misaligned b l = misaligned b m.
Proof.
  intros b l m F. unfold misaligned. induction F as [|x y l m (_ & _ & P) F IH]; [reflexivity|].
  cbn [existsb]. rewrite P, IH. reflexivity.
Qed.

Lemma kept_again : forall b l r, kept b l = Ok (Some r) -> kept b r = Ok (Some r).
Proof.
  intros b l. induction l as [|g l IH]; intros r H; cbn [kept] in H.
  - assert (r = []) by congruence. subst r. reflexivity.
  - destruct (g_at g) as [p|] eqn:P; [|discriminate].
    destruct (closest _ p None) as [c|] eqn:C; [|discriminate].
    destruct (Qlt_bool _ 0) eqn:B; [discriminate|].
    destruct (kept b l) as [[t|]| | |] eqn:K; cbn [bind] in H; try discriminate.
    assert (E : r = place b c (g_kind g) (g_length g) p
                 (roundFloat (c_height c / 2 - Qabs (py p) - g_length g / 2) 9) :: t) by congruence.
    subst r. cbn [kept place g_at g_kind g_length]. rewrite C, B, (IH t eq_refl). reflexivity.
Qed.

(** An accepted gapping was distributed, or its coordinates were kept. *)
Lemma process_cases : forall b l r, b_family b = Other -> process_gap b l = Ok (true, r) ->
  distribute b l = Ok (true, r) \/ (placed l b /\ kept b l = Ok (Some r)).
Proof.
  intros b l r F H. unfold process_gap in H. rewrite F in H. destruct l as [|x l]; [left; exact H|].
  destruct (_ || _) eqn:M in H; [left; exact H|]. apply orb_false_iff in M as [M1 M2]. right. split.
  - split; [|exact M2]. destruct (g_at x); congruence.
  - destruct (kept b (x :: l)) as [[k|]| | |]; cbn [bind stored] in H; congruence.
Qed.

Lemma keeps_placed : forall b l r, placed l b -> kept b l = Ok (Some r) -> placed r b.
Proof.
  intros b l r [P M] K. pose proof (kept_keeps b l r K) as KK. split.
  - destruct l as [|x l]; [destruct P|]. inversion KK as [|? y ? ? (_ & _ & Y) ?]; subst. rewrite Y. exact P.
  - rewrite <- M. symmetry. exact (misaligned_keeps b l r KK).
Qed.

(** ** C160: processing again *)

(** A gapping that was accepted is not distributed again: no gap moves, and none changes its length or
    its section. At most the distance to the closest end is told anew, or the whole is refused. *)
Theorem C160_nothing_moves : forall b l r, b_family b = Other -> apart_columns b ->
  process_gap b l = Ok (true, r) -> r <> [] ->
  process_gap b r = Ok (false, r) \/
  exists r2, process_gap b r = Ok (true, r2) /\ Forall2 same_place r r2.
Proof.
  intros b l r F A H R. destruct (process_cases b l r F H) as [D|(P & K)].
  - pose proof (distribute_stands b l r D) as S.
    rewrite (process_placed b r F (stands_placed b r R S)).
    destruct (kept_stands b r A S) as [K|(r2 & K & K2)]; rewrite K; cbn [bind stored].
    + left. reflexivity.
    + right. exists r2. split; [reflexivity|exact K2].
  - right. exists r. rewrite (process_placed b r F (keeps_placed b l r P K)), (kept_again b l r K).
    split; [reflexivity|]. clear. induction r as [|g r IH]; constructor; [|exact IH].
    repeat split; reflexivity.
Qed.

(** From the second time on nothing changes at all, whatever the gapping was to begin with. *)
Theorem C160_settles : forall b l r r2, b_family b = Other -> apart_columns b ->
  process_gap b l = Ok (true, r) -> r <> [] -> process_gap b r = Ok (true, r2) ->
  process_gap b r2 = Ok (true, r2).
Proof.
  intros b l r r2 F A H R H2.
  assert (P : placed r b).
  { destruct (process_cases b l r F H) as [D|[P K]].
    - apply stands_placed; [exact R|]. eapply distribute_stands. exact D.
    - exact (keeps_placed b l r P K). }
  rewrite (process_placed b r F P) in H2.
  destruct (kept b r) as [[k|]| | |] eqn:K; cbn [bind stored] in H2; try discriminate.
  assert (k = r2) by congruence. subst k.
  rewrite (process_placed b r2 F (keeps_placed b r r2 P K)), (kept_again b r r2 K). reflexivity.
Qed.

(** But the second time is not the first: a ground gap loses half of its length of the distance, and a
    gap of more than half the column, accepted before, is refused. *)
Theorem C160_ground_refuted : exists l r r2, process_gap e_core l = Ok (true, r) /\
  process_gap e_core r = Ok (true, r2) /\ nth_error (map (fun g => option_map Qred (g_normal g)) r) 0 = Some (Some (19 # 2000)) /\
  nth_error (map (fun g => option_map Qred (g_normal g)) r2) 0 = Some (Some (9 # 1000)).
Proof.
  exists [bare Subtractive (1 # 1000)]. do 2 eexists. split; [vm_compute; reflexivity|].
  split; [vm_compute; reflexivity|]. split; vm_compute; reflexivity.
Qed.

Theorem C160_refused_refuted : exists l r, process_gap e_core l = Ok (true, r) /\
  process_gap e_core r = Ok (false, r) /\ process_gap_or_throw e_core r = Throw "GapException".
Proof.
  exists [bare Subtractive (15 # 1000)]. eexists. split; [vm_compute; reflexivity|].
  split; vm_compute; reflexivity.
Qed.

(** Gaps in the middle of their columns, residual ones and spacers, are accepted again, and their
    distance changes by no more than half a nanometre. *)
Theorem C160_middle : forall b l r, b_family b = Other -> apart_columns b ->
  (forall c, In c (b_columns b) -> py (c_at c) == 0) -> process_gap b l = Ok (true, r) -> r <> [] ->
  (forall g, In g r -> exists c, In c (b_columns b) /\ in_middle b c g /\ g_length g <= c_height c) ->
  exists r2, process_gap b r = Ok (true, r2) /\
    Forall2 (fun x y => same_place x y /\ exists d e, g_normal x = Some d /\ g_normal y = Some e /\
                        Qabs (d - e) <= half_nanometre) r r2.
Proof.
  intros b l r F A Y0 H R M.
  assert (S : Forall (stands b) r).
  { apply Forall_forall. intros g I. destruct (M g I) as (c & C & (((p & P & X & Z) & S1 & S2 & S3 & S4) & P2 & N1) & _).
    exists c, p, (c_height c / 2 - g_length g / 2). split; [exact C|]. split; [exact X|]. split; [exact Z|].
    destruct g as [k x at_ sh nm pa ar se]. cbn in *. unfold place. subst. reflexivity. }
  rewrite (process_placed b r F (stands_placed b r R S)).
  assert (K : exists r2, kept b r = Ok (Some r2) /\
    Forall2 (fun x y => same_place x y /\ exists d e, g_normal x = Some d /\ g_normal y = Some e /\
                        Qabs (d - e) <= half_nanometre) r r2).
  { clear R H. induction r as [|g r IH]; [exists []; split; [reflexivity|constructor]|].
    destruct IH as (t & T & T2).
    { intros x I. apply M. right. exact I. }
    { inversion S; assumption. }
    destruct (M g (or_introl eq_refl)) as (c & C & (((p & P & X & Z) & S1 & S2 & S3 & S4) & P2 & N1) & L).
    assert (CL : closest (b_columns b) p None = Some c).
    { apply closest_in; [exact C|apply apart_0; rewrite X, Z; split; reflexivity| |intros; discriminate].
      intros y J Y. apply apart_0 in Y as [Y1 Y2]. apply A; [exact J|exact C| |].
      - rewrite Y1, X. reflexivity.
      - rewrite Y2, Z. reflexivity. }
    cbn [kept]. rewrite P, CL.
    assert (PP : py p == 0) by (replace p with (c_at c) by congruence; apply Y0; exact C).
    assert (AB : Qabs (py p) == 0) by (rewrite PP; reflexivity).
    assert (E : c_height c / 2 - Qabs (py p) - g_length g / 2 == c_height c / 2 - g_length g / 2) by (rewrite AB; ring).
    assert (X0 : 0 <= c_height c / 2 - Qabs (py p) - g_length g / 2).
    { rewrite E. assert (Q : c_height c / 2 - g_length g / 2 == (c_height c - g_length g) * (1 # 2)) by field. rewrite Q. lra. }
    replace (Qlt_bool (roundFloat (c_height c / 2 - Qabs (py p) - g_length g / 2) 9) 0) with false
      by (symmetry; apply lt_bool_false; apply round_nonneg; exact X0).
    rewrite T. cbn [bind]. eexists. split; [reflexivity|]. constructor; [|exact T2]. split.
    - unfold same_place. cbn. rewrite P, S1, S2, S3, S4. repeat split; reflexivity.
    - do 2 eexists. split; [exact N1|]. split; [reflexivity|].
      pose proof (round_bounds (c_height c / 2 - Qabs (py p) - g_length g / 2)) as B. unfold tick in B.
      set (y := roundFloat _ 9) in *. apply Qabs_Qle_condition. unfold half_nanometre. lra. }
  destruct K as (r2 & K & K2). exists r2. rewrite K. split; [reflexivity|exact K2].
Qed.

(** ** C161: cores without gaps, refusals and lengths *)

(** Toroids, molded cores and semi-shielded drums carry no gap: any is refused, and none appears. *)
Theorem C161_solid : forall b, b_family b = Toroid \/ b_family b = Molded \/ b_family b = Semishielded ->
  process_gap b [] = Ok (true, []) /\
  forall g l, process_gap b (g :: l) = Throw "GapException".
Proof. intros b [F|[F|F]]; unfold process_gap; rewrite F; split; reflexivity. Qed.

(** A drum in a ring takes no gap of the user. What it carries is its two clearances, whatever
    residual gaps it came with, and processing again changes nothing. *)
Theorem C161_ring : forall b r, b_family b = Drum_ring r ->
  (forall l, (exists g, In g l /\ g_kind g <> Residual) -> process_gap b l = Throw "GapException") /\
  forall l res, process_gap b l = Ok (true, res) ->
    (exists upper lower, res = [upper; lower] /\
      Forall (fun g => g_kind g = Residual /\ Qabs (g_length g - (r_K r - r_A r) / 2) <= half_nanometre) res /\
      (exists p d a, g_at upper = Some p /\ Qabs (py p - (r_B r - r_D r) / 2) <= half_nanometre /\
        g_normal upper = Some d /\ Qabs (d - r_D r / 2) <= half_nanometre /\
        g_area upper = Some a /\ Qabs (a - pi * (r_A r + r_K r) / 2 * r_D r) <= half_nanometre) /\
      (exists p d a, g_at lower = Some p /\ Qabs (py p + (r_B r - r_F r) / 2) <= half_nanometre /\
        g_normal lower = Some d /\ Qabs (d - r_F r / 2) <= half_nanometre /\
        g_area lower = Some a /\ Qabs (a - pi * (r_A r + r_K r) / 2 * r_F r) <= half_nanometre)) /\
    forall m, (forall g, In g m -> g_kind g = Residual) -> process_gap b m = Ok (true, res).
Proof.
  intros b r F. split.
  - intros l (g & I & K). unfold process_gap. rewrite F.
    replace (existsb _ l) with true; [reflexivity|]. symmetry. apply existsb_exists. exists g.
    split; [exact I|]. apply negb_true_iff. destruct (kind_eqb (g_kind g) Residual) eqn:E; [|reflexivity].
    apply kind_eqb_spec in E. contradiction.
  - intros l res H. unfold process_gap in H. rewrite F in H. destruct (existsb _ l); [discriminate|].
    destruct (asymmetric r) eqn:AS; [discriminate|]. destruct (b_window b) as [w|] eqn:W; [|discriminate].
    assert (E : res = [annulus r w (r_D r) ((r_B r - r_D r) / 2); annulus r w (r_F r) (- ((r_B r - r_F r) / 2))])
      by congruence.
    split.
    + do 2 eexists. split; [exact E|]. subst res.
      pose proof (round_near ((r_K r - r_A r) / 2)) as B. split.
      { repeat constructor; exact B. }
      split.
      * do 3 eexists. split; [reflexivity|]. split; [apply round_near|]. split; [reflexivity|].
        split; [apply round_near|]. split; [reflexivity|].
        assert (Q : pi * (r_A r + r_K r) / 2 * r_D r == 2 * pi * ((r_A r + r_K r) / 4) * r_D r) by field.
        rewrite Q. apply round_near.
      * do 3 eexists. split; [reflexivity|]. cbn [py]. split.
        { pose proof (round_near (- ((r_B r - r_F r) / 2))) as N.
          assert (Q : roundFloat (- ((r_B r - r_F r) / 2)) 9 + (r_B r - r_F r) / 2 ==
                      roundFloat (- ((r_B r - r_F r) / 2)) 9 - - ((r_B r - r_F r) / 2)) by ring.
          rewrite Q. exact N. }
        split; [reflexivity|]. split; [apply round_near|]. split; [reflexivity|].
        assert (Q : pi * (r_A r + r_K r) / 2 * r_F r == 2 * pi * ((r_A r + r_K r) / 4) * r_F r) by field.
        rewrite Q. apply round_near.
    + intros m M. unfold process_gap. rewrite F.
      replace (existsb _ m) with false.
      * rewrite AS, W, E. reflexivity.
      * symmetry. destruct (existsb _ m) eqn:X; [|reflexivity]. apply existsb_exists in X as (g & I & G).
        rewrite (M g I) in G. discriminate.
Qed.

(** A refusal leaves the gapping as it was; only residual gaps beyond the columns are dropped. *)
Theorem C161_refused : forall b l l2, process_gap b l = Ok (false, l2) ->
  l2 = l \/ ((forall g, In g l -> g_kind g = Residual) /\
             l2 = firstn (List.length (b_columns b)) l).
Proof.
  intros b l l2 H.
  assert (T : trimmed b l = l \/ ((forall g, In g l -> g_kind g = Residual) /\
                                  trimmed b l = firstn (List.length (b_columns b)) l)).
  { unfold trimmed. destruct (_ && _) eqn:E; [|left; reflexivity].
    apply andb_true_iff in E as [E1 E2]. apply Nat.eqb_eq in E1. apply Nat.ltb_lt in E2.
    pose proof (of_kind_length l) as L. right. split; [apply all_of_kind; lia|]. f_equal. lia. }
  assert (ST : forall g r, stored g r = (false, l2) -> l2 = g) by (intros g [r|] S; cbn in S; congruence).
  assert (D : distribute b l = Ok (false, l2) -> l2 = trimmed b l).
  { intro D. unfold distribute in D. destruct (Nat.eqb _ 0); [apply ok_pair in D; exact (ST _ _ D)|].
    destruct (_ && _); [apply ok_pair in D; exact (ST _ _ D)|].
    destruct (_ && _); [apply ok_pair in D; exact (ST _ _ D)|].
    destruct (wound_column b); [|discriminate]. apply ok_pair in D. exact (ST _ _ D). }
  unfold process_gap in H. destruct (b_family b) as [| | |r|] eqn:F.
  - destruct l; discriminate.
  - destruct l; discriminate.
  - destruct l; discriminate.
  - destruct (existsb _ l); [discriminate|]. destruct (asymmetric r); [discriminate|].
    destruct (b_window b); discriminate.
  - destruct l as [|g l].
    + rewrite (D H). exact T.
    + destruct (_ || _); [rewrite (D H); exact T|].
      destruct (kept b (g :: l)) as [k| | |]; cbn [bind] in H; try discriminate.
      apply ok_pair in H. left. exact (ST _ _ H).
Qed.

(** The variant that throws, throws when the plain one refuses, and gives the same gaps else. *)
Theorem C161_throws : forall b l,
  (forall r, process_gap b l = Ok (true, r) -> process_gap_or_throw b l = Ok r) /\
  (forall r, process_gap b l = Ok (false, r) -> process_gap_or_throw b l = Throw "GapException").
Proof. intros b l. split; intros r H; unfold process_gap_or_throw; rewrite H; reflexivity. Qed.

Lemma lay_asked : forall b l r, lay b l = Some r -> map asked r = map snd l.
Proof.
  intros b l r H. apply lay_some in H as [_ ->]. rewrite map_map. apply map_ext. intros [c [k x]]. reflexivity.
Qed.

Lemma wound_asked : forall b c l r, wound b c l = Some r -> map asked r = map asked l.
Proof.
  intros b c l r H. apply wound_some in H as [L N]. apply map_nth_Forall2.
  apply nth_error_Forall2; [now rewrite L|]. intros k g G. destruct (N k g G) as (o & e & A & _).
  eexists. split; [exact A|reflexivity].
Qed.

(** After a length is set, every gap that is not residual has it, whether it fits or not. *)
Theorem C161_length : forall b x l r, set_gap_length b x l = Ok r ->
  forall g, In g r -> g_kind g <> Residual -> g_length g = x.
Proof.
  intros b x l r H. unfold set_gap_length in H.
  set (m := map _ l) in H.
  assert (M : forall k q, In (k, q) (map asked m) -> k <> Residual -> q = x).
  { intros k q I K. apply in_map_iff in I as (g & E & I). unfold m in I. apply in_map_iff in I as (y & Y & _).
    subst g. unfold asked in E. destruct (kind_eqb (g_kind y) Residual) eqn:KY.
    - apply kind_eqb_spec in KY. congruence.
    - cbn in E. congruence. }
  assert (SUB : forall k q, In (k, q) (map asked (trimmed b m)) -> In (k, q) (map asked m)).
  { intros k q I. unfold trimmed in I. destruct (_ && _); [|exact I].
    apply in_map_iff in I as (g & E & I). apply in_map_iff. exists g. split; [exact E|].
    rewrite <- (firstn_skipn (List.length m - (List.length (of_kind Residual m) - List.length (b_columns b))) m).
    apply in_or_app. left. exact I. }
  destruct (distribute b m) as [[ok res]| | |] eqn:D; cbn [bind] in H; try discriminate.
  cbn [snd] in H. apply ok_pair in H. subst res.
  assert (Q : forall k q, In (k, q) (map asked r) -> k <> Residual -> q = x).
  { assert (ST : forall o, stored (trimmed b m) o = (ok, r) -> o = Some r \/ r = trimmed b m)
      by (intros [o|] S; cbn in S; [left|right]; congruence).
    assert (RT : r = trimmed b m -> forall k q, In (k, q) (map asked r) -> k <> Residual -> q = x).
    { intros -> k q I. apply M, SUB. exact I. }
    unfold distribute in D. destruct (Nat.eqb _ 0).
    { apply ok_pair in D. destruct (ST _ D) as [L|L]; [|exact (RT L)]. apply lay_asked in L. rewrite L.
      intros k q I K. rewrite map_map in I. apply in_map_iff in I as (c & C & _). cbn in C. congruence. }
    destruct (_ && _).
    { apply ok_pair in D. destruct (ST _ D) as [L|L]; [|exact (RT L)]. apply lay_asked in L. rewrite L.
      assert (RP : forall cs t z k q, In (k, q) (map snd (repeated cs t z)) ->
                   In (k, q) (map asked t) \/ (k, q) = asked z).
      { clear. intro cs. induction cs as [|c cs IH]; intros t z k q I; [destruct I|].
        destruct t as [|g t]; cbn in I; destruct I as [I|I].
        - right. symmetry. exact I.
        - destruct (IH [] z k q I) as [[]|J]. right. exact J.
        - left. left. exact I.
        - destruct (IH t g k q I) as [J|J]; [left; right; exact J|]. left. left. symmetry. exact J. }
      intros k q I K. destruct (RP _ _ _ k q I) as [J|J]; [apply (M k q (SUB k q J) K)|].
      unfold asked in J. cbn in J. congruence. }
    destruct (_ && _).
    { apply ok_pair in D. destruct (ST _ D) as [L|L]; [|exact (RT L)]. apply lay_asked in L. rewrite L.
      intros k q I K. apply in_map_iff in I as ([c y] & C & I). apply in_combine_r in I. cbn in C. subst y.
      apply (M k q); [apply SUB; exact I|exact K]. }
    destruct (wound_column b) as [c|]; [|discriminate]. apply ok_pair in D.
    destruct (ST _ D) as [L|L]; [|exact (RT L)].
    destruct (wound b c _) as [u|] eqn:WU; [|discriminate].
    destruct (lay b (returned _ _)) as [v|] eqn:V; [|discriminate].
    assert (UV : r = (u ++ v)%list) by congruence. rewrite UV, map_app.
    apply wound_asked in WU. apply lay_asked in V. intros k q I K. apply in_app_or in I as [I|I].
    - rewrite WU in I. apply in_map_iff in I as (g & G & I). apply (M k q); [|exact K].
      apply in_map_iff. exists g. split; [exact G|]. apply in_app_or in I as [I|I]; apply filter_In in I as [I _]; exact I.
    - exfalso. rewrite V in I. unfold returned in I. destruct (Nat.ltb _ _).
      + rewrite map_map in I. apply in_map_iff in I as (y & Y & _). cbn in Y. congruence.
      + apply in_map_iff in I as ([y z] & Y & I). apply in_combine_r in I. cbn in Y. subst z.
        apply in_map_iff in I as (g & G & I). apply filter_In in I as [_ I]. apply kind_eqb_spec in I. congruence. }
  intros g I K. apply (Q (g_kind g) (g_length g)); [|exact K].
  apply in_map_iff. exists g. split; [reflexivity|exact I].
Qed.

(** Setting a length on a toroid gives it a gap, and then it is refused. *)
Theorem C161_toroid_refuted : exists b r, b_family b = Toroid /\ process_gap b [] = Ok (true, []) /\
  set_gap_length b (1 # 1000) [] = Ok r /\ process_gap b r = Throw "GapException".
Proof.
  exists (Body Toroid [leg] (Some 1)). eexists. split; [reflexivity|]. split; [reflexivity|].
  split; [vm_compute; reflexivity|]. vm_compute. reflexivity.
Qed.

(** A length that does not fit stays with the place and the distance of the gap that was there. *)
Theorem C161_stale_refuted : exists r r2 x y, process_gap e_core [bare Subtractive (1 # 1000)] = Ok (true, r) /\
  set_gap_length e_core (3 # 100) r = Ok r2 /\ nth_error r 0 = Some x /\ nth_error r2 0 = Some y /\
  g_length y = 3 # 100 /\ c_height central_leg < g_length y /\ g_at y = g_at x /\ g_normal y = g_normal x.
Proof.
  do 4 eexists. split; [vm_compute; reflexivity|]. split; [vm_compute; reflexivity|].
  split; [reflexivity|]. split; [reflexivity|]. split; [reflexivity|]. split; [vm_compute; reflexivity|].
  split; reflexivity.
Qed.

(** ** C162: stacks *)

(** What a user wrote of a gap, without what a former processing added. *)
Definition written (g : gap) : gap := Gap (g_kind g) (g_length g) (g_at g) None None None None None.

Lemma of_kind_map : forall k f l, (forall g, g_kind (f g) = g_kind g) ->
  of_kind k (map f l) = map f (of_kind k l).
Proof.
  intros k f l K. unfold of_kind. induction l as [|g l IH]; [reflexivity|]. cbn [map filter].
  rewrite K. destruct (kind_eqb (g_kind g) k); cbn; [f_equal|]; exact IH.
Qed.

Section Same.
  Variable f : gap -> gap.
  Hypothesis same : forall g, g_kind (f g) = g_kind g /\ g_length (f g) = g_length g.

  Lemma trimmed_map : forall b l, trimmed b (map f l) = map f (trimmed b l).
  Proof.
    intros b l. unfold trimmed. rewrite !of_kind_map, !map_length by (intro g; apply same).
    destruct (_ && _); [apply firstn_map|reflexivity].
  Qed.

  Lemma spread_map : forall b c total chunk step l i offset d,
    spread b c total chunk step i offset d (map f l) = spread b c total chunk step i offset d l.
  Proof.
    intros b c total chunk step l. induction l as [|g l IH]; intros i offset d; [reflexivity|].
    cbn [map spread]. rewrite IH. destruct (same g) as (-> & ->). reflexivity.
  Qed.

  Lemma wound_map : forall b c l, wound b c (map f l) = wound b c l.
  Proof.
    intros b c l. unfold wound. rewrite map_length, !spread_map.
    destruct l as [|g l]; [reflexivity|]. cbn [map]. destruct (same g) as (_ & ->). reflexivity.
  Qed.

  Lemma pairs_map : forall l, map (fun g => (g_kind g, g_length g)) (map f l) = map (fun g => (g_kind g, g_length g)) l.
  Proof. intro l. rewrite map_map. apply map_ext. intro g. destruct (same g) as (-> & ->). reflexivity. Qed.

  Lemma returned_map : forall l cs, returned (map f l) cs = returned l cs.
  Proof. intros. unfold returned. rewrite map_length, pairs_map. reflexivity. Qed.

  Lemma repeated_map : forall cs l z, repeated cs (map f l) (f z) = repeated cs l z.
  Proof.
    intro cs. induction cs as [|c cs IH]; intros l z; [reflexivity|]. destruct l as [|g l]; cbn [map repeated].
    - destruct (same z) as (-> & ->). f_equal. exact (IH [] z).
    - destruct (same g) as (-> & ->). f_equal. apply IH.
  Qed.

  Lemma repeated_last : forall cs l y z, g_kind y = g_kind z -> g_length y = g_length z ->
    repeated cs l y = repeated cs l z.
  Proof.
    intro cs. induction cs as [|c cs IH]; intros l y z K L; [reflexivity|]. destruct l as [|g l]; cbn [repeated].
    - rewrite K, L. f_equal. apply IH; assumption.
    - reflexivity.
  Qed.

  Lemma distribute_map : forall b l r, distribute b (map f l) = Ok (true, r) <-> distribute b l = Ok (true, r).
  Proof.
    intros b l r. unfold distribute.
    rewrite trimmed_map, !of_kind_map, <- map_app, !map_length, returned_map, pairs_map
      by (intro g; apply same).
    assert (RE : repeated (b_columns b) (map f (trimmed b l)) (bare Residual 0) =
                 repeated (b_columns b) (trimmed b l) (bare Residual 0)).
    { rewrite <- (repeated_map (b_columns b) (trimmed b l) (bare Residual 0)).
      apply repeated_last; symmetry; apply same. }
    rewrite RE.
    assert (ST : forall o g1 g2, Ok (stored g1 o) = Ok (true, r) <-> Ok (stored g2 o) = Ok (true, r)).
    { intros [o|] g1 g2; cbn; [reflexivity|]. split; intro H; discriminate. }
    destruct (Nat.eqb _ 0); [apply ST|]. destruct (_ && _); [apply ST|].
    destruct (_ && _); [apply ST|]. destruct (wound_column b) as [c|]; [|reflexivity]. rewrite wound_map. apply ST.
  Qed.

  Hypothesis same_at : forall g, g_at (f g) = g_at g.

  Lemma kept_map : forall b l, kept b (map f l) = kept b l.
  Proof.
    intros b l. induction l as [|g l IH]; [reflexivity|]. cbn [map kept]. rewrite IH.
    destruct (same g) as (-> & ->). rewrite same_at. reflexivity.
  Qed.

  Lemma process_map : forall b l r, process_gap b (map f l) = Ok (true, r) <-> process_gap b l = Ok (true, r).
  Proof.
    intros b l r. unfold process_gap. destruct (b_family b) as [| | |x|].
    - destruct l; reflexivity.
    - destruct l; reflexivity.
    - destruct l; reflexivity.
    - assert (E : existsb (fun g => negb (kind_eqb (g_kind g) Residual)) (map f l) =
                  existsb (fun g => negb (kind_eqb (g_kind g) Residual)) l).
      { induction l as [|g l IH]; [reflexivity|]. cbn [map existsb]. rewrite IH.
        destruct (same g) as (-> & _). reflexivity. }
      rewrite E. reflexivity.
    - assert (M : misaligned b (map f l) = misaligned b l).
      { unfold misaligned. induction l as [|g l IH]; [reflexivity|]. cbn [map existsb]. rewrite IH.
        rewrite (same_at g). reflexivity. }
      pose proof (distribute_map b l r) as D. rewrite kept_map, M. clear M.
      destruct l as [|g l]; [exact D|]. cbn [map] in *. rewrite (same_at g).
      destruct (_ || _); [exact D|].
      destruct (kept b (g :: l)) as [[k|]| | |]; cbn [bind stored]; [reflexivity| |reflexivity|reflexivity|reflexivity].
      split; intro H; discriminate.
  Qed.
End Same.

Lemma closest_one : forall cs p c best, closest cs p best = Some c ->
  In c cs \/ exists d, best = Some (c, d).
Proof.
  intro cs. induction cs as [|x cs IH]; intros p c best H; cbn [closest] in H.
  - destruct best as [[y d]|]; [|discriminate]. right. exists d. congruence.
  - destruct best as [[y d]|].
    + destruct (Qlt_bool _ d); destruct (IH _ _ _ H) as [I|[e E]].
      * left. right. exact I.
      * left. left. congruence.
      * left. right. exact I.
      * right. exists d. congruence.
    + destruct (IH _ _ _ H) as [I|[e E]]; left; [right; exact I|left; congruence].
Qed.

(** ** Gaps written with coordinates *)

(** On the spot of a column: beside its axis by less than a hundredth of the largest coordinate of the
    axis, or of a micrometre if the axis is the one of the core. *)
Definition on_spot (c : column) (p : point) : Prop :=
  Qabs (px (c_at c) - px p) + Qabs (pz (c_at c) - pz p) < (1 # 100) * Qabs (px (c_at c)) \/
  Qabs (px (c_at c) - px p) + Qabs (pz (c_at c) - pz p) < (1 # 100) * Qabs (pz (c_at c)) \/
  Qabs (px (c_at c) - px p) + Qabs (pz (c_at c) - pz p) < 1 # 100000000.

Definition has_spot (b : body) (g : gap) : Prop :=
  exists p c, g_at g = Some p /\ In c (b_columns b) /\ on_spot c p.

Lemma exactly_spot : forall c p, exactly p c = true <-> on_spot c p.
Proof.
  intros c p. unfold exactly, on_spot. fold (apart (c_at c) p).
  set (a := apart (c_at c) p). set (u := Qabs (px (c_at c))). set (v := Qabs (pz (c_at c))).
  set (m := cmax v (cmax u (1 # 1000000))). rewrite lt_bool_true.
  assert (M : v <= m /\ u <= m /\ 1 # 1000000 <= m /\ (m == v \/ m == u \/ m == 1 # 1000000)).
  { unfold m, cmax. destruct (Qlt_bool u (1 # 1000000)) eqn:E1;
      [apply lt_bool_true in E1|apply lt_bool_false in E1].
    - destruct (Qlt_bool v (1 # 1000000)) eqn:E2; [apply lt_bool_true in E2|apply lt_bool_false in E2];
        (split; [lra|]; split; [lra|]; split; [lra|]); [right; right|left]; reflexivity.
    - destruct (Qlt_bool v u) eqn:E2; [apply lt_bool_true in E2|apply lt_bool_false in E2];
        (split; [lra|]; split; [lra|]; split; [lra|]); [right; left|left]; reflexivity. }
  destruct M as (M1 & M2 & M3 & M4).
  assert (P : 0 < m) by lra.
  assert (D : a / m < 1 # 100 <-> a < (1 # 100) * m).
  { split; intro H.
    - apply (Qmult_lt_r _ _ m P) in H. unfold Qdiv in H. rewrite <- Qmult_assoc, (Qmult_comm (/ m)), Qmult_inv_r in H by lra. lra.
    - apply (Qmult_lt_r _ _ m P). unfold Qdiv. rewrite <- Qmult_assoc, (Qmult_comm (/ m)), Qmult_inv_r by lra. lra. }
  rewrite D. split.
  - intro H. destruct M4 as [E|[E|E]]; [right; left|left|right; right]; lra.
  - intros [H|[H|H]]; lra.
Qed.

Lemma misaligned_spots : forall b l, misaligned b l = false <-> forall g, In g l -> has_spot b g.
Proof.
  intros b l. unfold misaligned. split.
  - intros H g I. destruct (g_at g) as [p|] eqn:P.
    + destruct (existsb (exactly p) (b_columns b)) eqn:E.
      * apply existsb_exists in E as (c & C & S). exists p, c. split; [exact P|]. split; [exact C|].
        apply exactly_spot. exact S.
      * exfalso. assert (X : existsb (fun g => match g_at g with None => true
            | Some p => negb (existsb (exactly p) (b_columns b)) end) l = true).
        { apply existsb_exists. exists g. split; [exact I|]. rewrite P, E. reflexivity. }
        congruence.
    + exfalso. assert (X : existsb (fun g => match g_at g with None => true
          | Some p => negb (existsb (exactly p) (b_columns b)) end) l = true).
      { apply existsb_exists. exists g. split; [exact I|]. rewrite P. reflexivity. }
      congruence.
  - intro H. destruct (existsb _ l) eqn:E; [|reflexivity]. apply existsb_exists in E as (g & I & G).
    destruct (H g I) as (p & c & P & C & S). rewrite P in G. apply negb_true_iff in G.
    assert (X : existsb (exactly p) (b_columns b) = true).
    { apply existsb_exists. exists c. split; [exact C|]. apply exactly_spot. exact S. }
    congruence.
Qed.

Lemma closest_min : forall cs p c best, closest cs p best = Some c ->
  (forall x d, best = Some (x, d) -> d == apart (c_at x) p) ->
  (forall x, In x cs -> apart (c_at c) p <= apart (c_at x) p) /\
  (forall x d, best = Some (x, d) -> apart (c_at c) p <= d).
Proof.
  intro cs. induction cs as [|y cs IH]; intros p c best H I; cbn [closest] in H.
  - split; [intros x []|]. intros x d B. pose proof (I x d B). rewrite B in H.
    assert (x = c) by congruence. subst x. lra.
  - assert (J : forall x d, Some (y, apart (c_at y) p) = Some (x, d) -> d == apart (c_at x) p).
    { intros x d E. inversion E; subst. reflexivity. }
    destruct best as [[x0 d0]|].
    + destruct (Qlt_bool (apart (c_at y) p) d0) eqn:E.
      * destruct (IH _ _ _ H J) as [A B]. apply lt_bool_true in E. pose proof (B y _ eq_refl) as Y. split.
        -- intros x [<- |K]; [exact Y|exact (A x K)].
        -- intros x d X. assert (d = d0) by congruence. subst d. lra.
      * destruct (IH _ _ _ H I) as [A B]. apply lt_bool_false in E. pose proof (B x0 d0 eq_refl) as Y. split.
        -- intros x [<- |K]; [lra|exact (A x K)].
        -- exact B.
    + destruct (IH _ _ _ H J) as [A B]. pose proof (B y _ eq_refl) as Y. split; [|intros; discriminate].
      intros x [<- |K]; [exact Y|exact (A x K)].
Qed.

(** Gaps on the spots of columns stay at the coordinates written. Each takes the section of the column
    closest to it, and its distance to the end is counted from its own height. *)
Theorem C160_coordinates : forall b l r, b_family b = Other -> l <> [] ->
  (forall g, In g l -> has_spot b g) -> process_gap b l = Ok (true, r) ->
  Forall2 (fun x y => asked y = asked x /\ g_at y = g_at x /\
    exists c p d, In c (b_columns b) /\ g_at x = Some p /\ g_normal y = Some d /\
      g_area y = Some (c_area c) /\ g_section y = Some (c_width c, c_depth c) /\ g_shape y = Some (c_shape c) /\
      (forall o, In o (b_columns b) -> apart (c_at c) p <= apart (c_at o) p) /\
      Qabs (d - (c_height c / 2 - Qabs (py p) - g_length x / 2)) <= half_nanometre /\ 0 <= d) l r.
Proof.
  intros b l r F N S H.
  assert (P : placed l b).
  { split; [|apply misaligned_spots; exact S]. destruct l as [|g l]; [congruence|].
    destruct (S g (or_introl eq_refl)) as (p & _ & P & _). congruence. }
  rewrite (process_placed b l F P) in H. clear N P F.
  destruct (kept b l) as [[k|]| | |] eqn:K; cbn [bind stored] in H; try discriminate.
  assert (k = r) by congruence. subst k. clear H. revert r K.
  induction l as [|g l IH]; intros r K; cbn [kept] in K.
  - assert (r = []) by congruence. subst r. constructor.
  - destruct (g_at g) as [p|] eqn:P; [|discriminate].
    destruct (closest _ p None) as [c|] eqn:C; [|discriminate].
    destruct (Qlt_bool _ 0) eqn:B; [discriminate|]. apply lt_bool_false in B.
    destruct (kept b l) as [[t|]| | |] eqn:T; cbn [bind] in K; try discriminate.
    assert (E : r = place b c (g_kind g) (g_length g) p
                 (roundFloat (c_height c / 2 - Qabs (py p) - g_length g / 2) 9) :: t) by congruence.
    subst r. constructor; [|apply IH; [intros x I; apply S; right; exact I|reflexivity]].
    split; [reflexivity|]. split; [cbn; congruence|]. exists c, p. eexists.
    destruct (closest_min _ _ _ _ C) as [A _]; [intros; discriminate|].
    destruct (closest_one _ _ _ _ C) as [I|[d D]]; [|discriminate].
    split; [exact I|].
    split; [exact P|]. split; [reflexivity|].
    split; [reflexivity|]. split; [reflexivity|]. split; [reflexivity|]. split; [exact A|]. split; [apply round_near|exact B].
Qed.

(** If any gap has no coordinates, or stands beside all the columns, the coordinates of all of them are
    dropped and the gaps are laid out afresh. *)
Theorem C160_laid_out : forall b l r, b_family b = Other -> (exists g, In g l /\ ~ has_spot b g) ->
  process_gap b l = Ok (true, r) <-> process_gap b (map (fun g => bare (g_kind g) (g_length g)) l) = Ok (true, r).
Proof.
  intros b l r F (g & I & G).
  assert (M : misaligned b l = true).
  { destruct (misaligned b l) eqn:M; [reflexivity|]. exfalso. apply G. exact (proj1 (misaligned_spots b l) M g I). }
  rewrite (process_unplaced b (map _ l) F).
  - rewrite distribute_map by (intro x; split; reflexivity). unfold process_gap. rewrite F, M.
    destruct l as [|x l]; [reflexivity|]. rewrite orb_true_r. reflexivity.
  - apply Forall_forall. intros x X. apply in_map_iff in X as (y & <- & _). reflexivity.
Qed.

(** A core read back makes the same gaps of what was written, whatever areas, sections and distances
    the file carried. *)
Theorem C162_read_back : forall shape stacks l r,
  construct shape stacks l = Ok (true, r) <-> construct shape stacks (map written l) = Ok (true, r).
Proof.
  intros shape stacks l r. unfold construct, process_data.
  set (b := Body _ _ _).
  rewrite (process_map (scale_gap stacks) (fun g => conj eq_refl eq_refl) (fun g => eq_refl) b l r).
  rewrite (process_map (scale_gap stacks) (fun g => conj eq_refl eq_refl) (fun g => eq_refl) b (map written l) r).
  symmetry. apply (process_map written); intro g; [split|]; reflexivity.
Qed.

Lemma kept_columns : forall b l r, kept b l = Ok (Some r) ->
  Forall (fun g => exists c p d, In c (b_columns b) /\ g = place b c (g_kind g) (g_length g) p d) r.
Proof.
  intros b l. induction l as [|g l IH]; intros r H; cbn [kept] in H.
  - assert (r = []) by congruence. subst r. constructor.
  - destruct (g_at g) as [p|]; [|discriminate].
    destruct (closest _ p None) as [c|] eqn:C; [|discriminate].
    destruct (Qlt_bool _ 0); [discriminate|].
    destruct (kept b l) as [[t|]| | |]; cbn [bind] in H; try discriminate.
    assert (E : r = place b c (g_kind g) (g_length g) p
                 (roundFloat (c_height c / 2 - Qabs (py p) - g_length g / 2) 9) :: t) by congruence.
    subst r. constructor; [|apply IH; reflexivity]. exists c, p. eexists. split; [|reflexivity].
    destruct (closest_one _ _ _ _ C) as [I|[d D]]; [exact I|discriminate].
Qed.

(** Its gaps have the area and the depth of the stack: those of a column, times the stacks. *)
Theorem C162_stacked : forall shape stacks l r, b_family shape = Other ->
  construct shape stacks l = Ok (true, r) ->
  Forall (fun g => exists c, In c (b_columns shape) /\ g_area g = Some (c_area c * stacks) /\
                   g_section g = Some (c_width c, c_depth c * stacks)) r.
Proof.
  intros shape stacks l r F H. unfold construct in H.
  set (d := process_data shape stacks l) in H.
  assert (P : Forall (fun g => exists c p e, In c (b_columns (fst d)) /\
                               g = place (fst d) c (g_kind g) (g_length g) p e) r).
  { destruct (process_cases (fst d) (snd d) r F H) as [D|[_ K]].
    - eapply Forall_impl; [|exact (distribute_stands _ _ _ D)].
      intros g (c & p & e & C & _ & _ & E). exists c, p, e. split; assumption.
    - exact (kept_columns _ _ _ K). }
  eapply Forall_impl; [|exact P]. intros g (c & p & e & I & E).
  cbn in I. apply in_map_iff in I as (y & <- & I). exists y. split; [exact I|].
  rewrite E. split; reflexivity.
Qed.

(** But processing the data of a core that has its gaps multiplies their areas by the stacks once
    more, while the columns keep theirs. *)
Theorem C162_again_refuted : exists r b2 r2 x c, construct e_core 2 [bare Subtractive (1 # 1000)] = Ok (true, r) /\
  process_data e_core 2 r = (b2, r2) /\ nth_error r2 0 = Some x /\ nth_error (b_columns b2) 0 = Some c /\
  c_area c == 2 * c_area central_leg /\ option_map Qred (g_area x) = Some (Qred (4 * c_area central_leg)).
Proof.
  do 5 eexists. split; [vm_compute; reflexivity|]. split; [reflexivity|]. split; [reflexivity|].
  split; [reflexivity|]. split; vm_compute; reflexivity.
Qed.

(** ** Witnesses *)

Lemma e_apart : apart_columns e_core.
Proof.
  intros x y X Y EX _. cbn in X, Y.
  destruct X as [<- |[<- |[<- |[]]]], Y as [<- |[<- |[<- |[]]]]; try reflexivity;
    vm_compute in EX; discriminate.
Qed.

Example C160_witness : exists r r2, process_gap e_core (repeat (bare Subtractive (1 # 1000)) 3) = Ok (true, r) /\
  r <> [] /\ process_gap e_core r = Ok (true, r2) /\ process_gap e_core r2 = Ok (true, r2).
Proof.
  do 2 eexists. split; [vm_compute; reflexivity|]. split; [discriminate|].
  split; [vm_compute; reflexivity|]. vm_compute. reflexivity.
Qed.

Example C160_middle_witness : exists r, process_gap e_core [bare Additive (1 # 1000)] = Ok (true, r) /\ r <> [] /\
  forall g, In g r -> exists c, In c (b_columns e_core) /\ in_middle e_core c g /\ g_length g <= c_height c.
Proof.
  eexists. split; [vm_compute; reflexivity|]. split; [discriminate|].
  intros g I. cbn [In] in I.
  destruct I as [<- |[<- |[<- |[]]]];
    [exists central_leg|exists (lateral_leg (3 # 200))|exists (lateral_leg (- (3 # 200)))];
    (split; [cbn; auto|]; split; [|vm_compute; discriminate]; split;
     [split; [eexists; split; [reflexivity|]; split; reflexivity|]; split; [reflexivity|]; split; [reflexivity|];
      split; reflexivity|split; reflexivity]).
Qed.

Example C160_coordinates_witness : exists r,
  process_gap e_core [Gap Subtractive (1 # 1000) (Some (Point 0 (1 # 200) 0)) None None None None None] = Ok (true, r) /\
  List.length r = 1%nat /\
  has_spot e_core (Gap Subtractive (1 # 1000) (Some (Point 0 (1 # 200) 0)) None None None None None) /\
  ~ has_spot e_core (Gap Subtractive (1 # 1000) (Some (Point (1 # 100) (1 # 200) 0)) None None None None None).
Proof.
  eexists. split; [vm_compute; reflexivity|]. split; [reflexivity|]. split.
  - exists (Point 0 (1 # 200) 0), central_leg. split; [reflexivity|]. split; [left; reflexivity|].
    right. right. vm_compute. reflexivity.
  - intros (p & c & P & C & S). cbn in P. assert (p = Point (1 # 100) (1 # 200) 0) by congruence. subst p.
    apply exactly_spot in S. destruct C as [<- |[<- |[<- |[]]]]; vm_compute in S; discriminate.
Qed.

Example C161_ring_witness : exists r, process_gap (Body (Drum_ring (Ring 10 None 6 1 1 11)) [leg] (Some 3)) [] = Ok (true, r) /\
  map (fun g => Qred (g_length g)) r = [1 # 2; 1 # 2].
Proof. eexists. split; vm_compute; reflexivity. Qed.

Example C161_refused_witness : process_gap e_core [bare Subtractive (3 # 100)] = Ok (false, [bare Subtractive (3 # 100)]).
Proof. vm_compute. reflexivity. Qed.

Example C162_witness : exists r, construct e_core 2 [bare Subtractive (1 # 1000)] = Ok (true, r) /\
  construct e_core 2 r <> Ok (true, r) /\ List.length r = 3%nat.
Proof.
  eexists. split; [vm_compute; reflexivity|]. split; [|reflexivity].
  intro H. vm_compute in H. discriminate.
Qed.

(** A drum in a ring whose second flange is given, and is another diameter, is refused; one
    without it, or with the diameter of the first, is not. *)
Theorem C161_flanges : forall b r w l, b_family b = Drum_ring r -> b_window b = Some w ->
  (forall g, In g l -> g_kind g = Residual) ->
  (process_gap b l = Throw "NotImplementedException" <->
   exists a, r_A2 r = Some a /\ 0 < a /\ ~ roundFloat a 9 == roundFloat (r_A r) 9) /\
  ((exists a, r_A2 r = Some a /\ (a <= 0 \/ a == r_A r)) \/ r_A2 r = None ->
   exists res, process_gap b l = Ok (true, res)).
Proof.
  intros b r w l F W R. unfold process_gap. rewrite F, W.
  assert (E : existsb (fun g => negb (kind_eqb (g_kind g) Residual)) l = false).
  { destruct (existsb _ l) eqn:X; [|reflexivity]. apply existsb_exists in X. destruct X as (g & J & K).
    rewrite (R g J) in K. discriminate. }
  rewrite E. unfold asymmetric. destruct (r_A2 r) as [a|].
  - destruct (Qlt_bool 0 a) eqn:P; qb.
    + destruct (Qeq_bool (roundFloat a 9) (roundFloat (r_A r) 9)) eqn:Q; qb; cbn [negb andb].
      * split; [split; [discriminate|intros (x & X & _ & N); injection X as <-; contradiction]|eauto].
      * split; [split; [intros _; exists a; auto|reflexivity]|].
        intros [(x & X & D) | X]; [|discriminate]. injection X as <-. exfalso.
        destruct D as [D | D]; [lra|]. apply Q. now apply round_comp.
    + cbn [andb]. split; [split; [discriminate|intros (x & X & N & _); injection X as <-; lra]|eauto].
  - split; [split; [discriminate|intros (x & X & _); discriminate]|eauto].
Qed.

(** Stacking [n] pieces leaves the columns where they were, as high and as wide, and makes
    them [n] times as deep and as large. *)
Theorem C162_columns : forall shape n gapping b l, process_data shape n gapping = (b, l) ->
  b_family b = b_family shape /\ b_window b = b_window shape /\
  Forall2 (fun c c' => c_at c' = c_at c /\ c_role c' = c_role c /\ c_shape c' = c_shape c /\
    c_height c' = c_height c /\ c_width c' = c_width c /\
    c_depth c' == n * c_depth c /\ c_area c' == n * c_area c) (b_columns shape) (b_columns b).
Proof.
  intros shape n gapping b l H. unfold process_data in H. injection H as <- <-. cbn.
  split; [reflexivity|]. split; [reflexivity|].
  induction (b_columns shape) as [|c cs IH]; cbn; constructor; [|exact IH].
  repeat split; cbn; ring.
Qed.

Print Assumptions C160_nothing_moves.
Print Assumptions C160_settles.
Print Assumptions C160_coordinates.
Print Assumptions C160_laid_out.
Print Assumptions C160_ground_refuted.
Print Assumptions C160_refused_refuted.
Print Assumptions C160_middle.
Print Assumptions C161_solid.
Print Assumptions C161_ring.
Print Assumptions C161_refused.
Print Assumptions C161_throws.
Print Assumptions C161_length.
Print Assumptions C161_toroid_refuted.
Print Assumptions C161_stale_refuted.
Print Assumptions C162_read_back.
Print Assumptions C162_stacked.
Print Assumptions C162_again_refuted.
Print Assumptions C161_flanges.
Print Assumptions C162_columns.
