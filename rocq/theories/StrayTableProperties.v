(** C200, C201, C202: the tables of capacitances the user reads. *)
From Coq Require Import QArith Qabs List Bool String ZArith Lia Lqa.
From Verif Require Import Base QAux StrMap StrayModel StrayProperties StrayPairProperties.
Import ListNotations.
Local Open Scope Q_scope.

(** * Maps keyed by two names *)
Lemma np_eq : forall p q, name_pair_eqb p q = true <-> p = q.
Proof.
  intros (a, b) (c, d). unfold name_pair_eqb. cbn [fst snd]. rewrite andb_true_iff, !String.eqb_eq. split; [intros (-> & ->); reflexivity|intro H; injection H; auto].
Qed.
Lemma np_refl : forall p, name_pair_eqb p p = true.
Proof. intro p. apply np_eq. reflexivity. Qed.
Lemma np_neq : forall p q, p <> q -> name_pair_eqb p q = false.
Proof. intros p q H. destruct (name_pair_eqb p q) eqn:E; [apply np_eq in E; contradiction|reflexivity]. Qed.
Lemma fp_cons : forall A p q (a : A) m, find_pair p ((q, a) :: m) = if name_pair_eqb p q then Some a else find_pair p m.
Proof. reflexivity. Qed.
Lemma fp_in : forall A p (a : A) m, find_pair p m = Some a -> In (p, a) m.
Proof.
  induction m as [|(q, b) m IH]; intro H; [discriminate|]. rewrite fp_cons in H. destruct (name_pair_eqb p q) eqn:E.
  - apply np_eq in E. injection H as ->. left. congruence.
  - right. apply IH, H.
Qed.
Lemma in_fp : forall A p (a : A) m, In (p, a) m -> exists b, find_pair p m = Some b.
Proof.
  induction m as [|(q, b) m IH]; intro H; [contradiction|]. rewrite fp_cons. destruct (name_pair_eqb p q) eqn:E; [eauto|].
  destruct H as [X|X]; [injection X as -> ->; rewrite np_refl in E; discriminate|apply IH, X].
Qed.
Lemma hp_false : forall A p (m : list ((string * string) * A)), has_pair p m = false -> find_pair p m = None.
Proof. intros A p m H. unfold has_pair in H. destruct (find_pair p m); [discriminate|reflexivity]. Qed.
Lemma sflip : forall (p : string * string), flip (flip p) = p.
Proof. intros (a, b). reflexivity. Qed.

(** * C200 *)
(** No pair is there twice, in either order. *)
Fixpoint single {A} (m : list ((string * string) * A)) : Prop :=
  match m with
  | [] => True
  | (k, _) :: r => find_pair k r = None /\ find_pair (flip k) r = None /\ single r
  end.
Lemma single_unique : forall A (m : list ((string * string) * A)) k s k' s', single m -> In (k, s) m -> In (k', s') m ->
  k' = k \/ k' = flip k -> k' = k /\ s' = s.
Proof.
  induction m as [|(q, b) m IH]; intros k s k' s' H I1 I2 E; [contradiction|]. cbn [single] in H. destruct H as (N1 & N2 & H).
  destruct I1 as [X|I1], I2 as [Y|I2].
  - injection X as -> ->. injection Y as -> ->. auto.
  - injection X as -> ->. exfalso. destruct (in_fp _ _ _ _ I2) as (c & F). destruct E as [->| ->]; congruence.
  - injection Y as -> ->. exfalso. destruct (in_fp _ _ _ _ I1) as (c & F). destruct E as [->| ->]; [congruence|]. rewrite sflip in N2. congruence.
  - apply (IH k s k' s' H I1 I2 E).
Qed.
Definition from_loop (sc : scene) (ps : list (winding * winding)) (k : string * string) (s : settled) : Prop :=
  exists a b, In (a, b) ps /\ k = (wname a, wname b) /\ settle enough sc a b true 0 (Some 0) nothing = Ok s.
Lemma all_pairs_inv : forall sc all ps done out, all_pairs sc ps done = Ok out -> single done ->
  (forall k s, In (k, s) done -> from_loop sc all k s) -> incl ps all ->
  single out /\ (forall k s, In (k, s) out -> from_loop sc all k s) /\
  (forall k s, In (k, s) done -> In (k, s) out) /\
  (forall a b, In (a, b) ps -> exists s, In ((wname a, wname b), s) out \/ In ((wname b, wname a), s) out).
Proof.
  induction ps as [|(a, b) ps IH]; intros done out H S P L.
  - cbn [all_pairs] in H. injection H as <-. repeat split; auto. contradiction.
  - cbn [all_pairs] in H. destruct (has_pair (wname a, wname b) done || has_pair (flip (wname a, wname b)) done) eqn:E.
    + destruct (IH done out H S P) as (A & B & C & D); [intros x I0; apply L; right; exact I0|]. split; [exact A|]. split; [exact B|]. split; [exact C|].
      intros x y [X|X]; [|apply D, X]. injection X as <- <-. apply orb_true_iff in E. unfold has_pair in E. change (flip (wname a, wname b)) with (wname b, wname a) in E.
      destruct E as [E|E].
      * destruct (find_pair (wname a, wname b) done) as [s|] eqn:F; [|discriminate]. exists s. left. apply C, fp_in, F.
      * destruct (find_pair (wname b, wname a) done) as [s|] eqn:F; [|discriminate]. exists s. right. apply C, fp_in, F.
    + apply orb_false_iff in E. destruct E as (E1 & E2). apply hp_false in E1. apply hp_false in E2.
      destruct (settle enough sc a b true 0 (Some 0) nothing) as [s| | |] eqn:F; cbn [bind] in H; try discriminate.
      destruct (IH (((wname a, wname b), s) :: done) out H) as (A & B & C & D).
      * cbn [single]. auto.
      * intros k s' [X|X]; [|apply P, X]. injection X as <- <-. exists a, b. repeat split; [apply L; left; reflexivity|exact F].
      * intros x I0. apply L. right. exact I0.
      * split; [exact A|]. split; [exact B|]. split; [intros k s' X; apply C; right; exact X|].
        intros x y [X|X]; [|apply D, X]. injection X as <- <-. exists s. left. apply C. left. reflexivity.
Qed.
Lemma pairs_done_inv : forall sc done, pairs_done sc = Ok done ->
  single done /\ (forall k s, In (k, s) done -> from_loop sc (list_prod (windings sc) (windings sc)) k s) /\
  (forall a b, In a (windings sc) -> In b (windings sc) -> exists s, In ((wname a, wname b), s) done \/ In ((wname b, wname a), s) done).
Proof.
  intros sc done H. destruct (all_pairs_inv sc _ _ _ _ H I (fun k s (X : In (k, s) []) => match X with end) (incl_refl _)) as (A & B & _ & D).
  split; [exact A|]. split; [exact B|]. intros a b IA IB. apply D, in_prod; assumption.
Qed.
(** The capacitance of two windings once all pairs are done. *)
Definition of_pair (done : list ((string * string) * settled)) (k : string * string) (c : Q) : Prop :=
  exists s, (In (k, s) done \/ In (flip k, s) done) /\ capacity s = c.
Lemma of_pair_unique : forall done k c c', single done -> of_pair done k c -> of_pair done k c' -> c = c'.
Proof.
  intros done k c c' S (s & H & <-) (s' & H' & <-).
  destruct H as [H|H], H' as [H'|H'].
  - destruct (single_unique _ _ _ _ _ _ S H H' (or_introl eq_refl)) as (_ & ->). reflexivity.
  - destruct (single_unique _ _ _ _ _ _ S H H' (or_intror eq_refl)) as (_ & ->). reflexivity.
  - destruct (single_unique _ _ _ _ _ _ S H' H (or_intror eq_refl)) as (_ & ->). reflexivity.
  - destruct (single_unique _ _ _ _ _ _ S H H' (or_introl eq_refl)) as (_ & ->). reflexivity.
Qed.
Lemma among_fold : forall done l m out,
  fold_left (fun m (ab : winding * winding) => match find_pair (wname (fst ab), wname (snd ab)) done with
     | Some s => (flip (wname (fst ab), wname (snd ab)), capacity s) :: ((wname (fst ab), wname (snd ab)), capacity s) :: m | None => m end) l m = out ->
  (forall p c, find_pair p m = Some c -> of_pair done p c) ->
  (forall p c, find_pair p out = Some c -> of_pair done p c) /\
  (forall p, find_pair p m <> None -> find_pair p out <> None) /\
  (forall a b, In (a, b) l -> find_pair (wname a, wname b) done <> None -> find_pair (wname a, wname b) out <> None /\ find_pair (wname b, wname a) out <> None).
Proof.
  induction l as [|(a, b) l IH]; intros m out H S.
  - cbn [fold_left] in H. subst out. repeat split; auto; contradiction.
  - cbn [fold_left fst snd] in H. destruct (find_pair (wname a, wname b) done) as [s|] eqn:F.
    + destruct (IH _ _ H) as (A & B & C).
      * intros p c. rewrite !fp_cons. destruct (name_pair_eqb p (flip (wname a, wname b))) eqn:E1; [|destruct (name_pair_eqb p (wname a, wname b)) eqn:E2; [|apply S]].
        -- apply np_eq in E1. subst p. intro X. exists s. split; [right; rewrite sflip; apply fp_in, F|congruence].
        -- apply np_eq in E2. subst p. intro X. exists s. split; [left; apply fp_in, F|congruence].
      * split; [exact A|]. split.
        -- intros p X. apply B. rewrite !fp_cons. destruct (name_pair_eqb p (flip (wname a, wname b))), (name_pair_eqb p (wname a, wname b)); try discriminate. exact X.
        -- intros x y [X|X] N; [|apply C; assumption]. injection X as <- <-. split; apply B; rewrite !fp_cons; change (flip (wname a, wname b)) with (wname b, wname a); rewrite np_refl.
           ++ destruct (name_pair_eqb (wname a, wname b) (wname b, wname a)); discriminate.
           ++ discriminate.
    + destruct (IH _ _ H S) as (A & B & C). split; [exact A|]. split; [exact B|].
      intros x y [X|X] N; [|apply C; assumption]. injection X as <- <-. congruence.
Qed.
(** Every pair of windings has one capacitance, the same in both orders; it is
    the one the energy method gave for the two. *)
Theorem C200_every_pair : forall sc done, pairs_done sc = Ok done ->
  forall a b, In a (windings sc) -> In b (windings sc) ->
  exists c, find_pair (wname a, wname b) (among_windings (windings sc) done) = Some c /\
            find_pair (wname b, wname a) (among_windings (windings sc) done) = Some c /\
            (exists a' b' s, settle enough sc a' b' true 0 (Some 0) nothing = Ok s /\ capacity s = c /\
               ((wname a' = wname a /\ wname b' = wname b) \/ (wname a' = wname b /\ wname b' = wname a))) /\
            (healthy sc -> 0 <= c).
Proof.
  intros sc done H a b IA IB. destruct (pairs_done_inv sc done H) as (S & P & D).
  destruct (among_fold done (list_prod (windings sc) (windings sc)) [] (among_windings (windings sc) done) eq_refl) as (A & _ & C); [discriminate|].
  assert (N : find_pair (wname a, wname b) (among_windings (windings sc) done) <> None /\ find_pair (wname b, wname a) (among_windings (windings sc) done) <> None).
  { destruct (D a b IA IB) as (s & [X|X]); destruct (in_fp _ _ _ _ X) as (s' & F).
    - apply C; [apply in_prod; assumption|congruence].
    - apply and_comm. apply C; [apply in_prod; assumption|congruence]. }
  destruct N as (N1 & N2). destruct (find_pair (wname a, wname b) _) as [c|] eqn:E1; [|contradiction]. destruct (find_pair (wname b, wname a) _) as [c'|] eqn:E2; [|contradiction].
  pose proof (A _ _ E1) as O1. pose proof (A _ _ E2) as O2.
  assert (O3 : of_pair done (wname a, wname b) c') by (destruct O2 as (s & X & Y); exists s; split; [|exact Y]; change (flip (wname b, wname a)) with (wname a, wname b) in X; change (flip (wname a, wname b)) with (wname b, wname a); tauto).
  rewrite (of_pair_unique _ _ _ _ S O3 O1). exists c. split; [reflexivity|]. split; [reflexivity|].
  destruct O1 as (s & X & <-).
  assert (Q : exists a' b', settle enough sc a' b' true 0 (Some 0) nothing = Ok s /\ ((wname a' = wname a /\ wname b' = wname b) \/ (wname a' = wname b /\ wname b' = wname a))).
  { destruct X as [X|X]; destruct (P _ _ X) as (a' & b' & _ & K & F); exists a', b'; (split; [exact F|]); unfold flip in K; cbn [fst snd] in K;
      pose proof (f_equal fst K); pose proof (f_equal snd K); cbn [fst snd] in *; auto. }
  destruct Q as (a' & b' & F & W). split; [exists a', b', s; auto|].
  intro HH. apply (C199_nonnegative enough sc a' b' s); [unfold enough; lia|exact HH|exact F].
Qed.
(** The whole calculation ends, with the tables or with the one error. *)
Theorem C200_ends : forall sc, (exists done, pairs_done sc = Ok done) \/ pairs_done sc = Throw "NaNResult".
Proof.
  intro sc. unfold pairs_done. generalize (list_prod (windings sc) (windings sc)) as ps. generalize (@nil ((string * string) * settled)) as done.
  intros done ps. revert done. induction ps as [|(a, b) ps IH]; intro done; [left; eexists; reflexivity|]. cbn [all_pairs].
  destruct (_ || _); [apply IH|].
  assert (F : (2 <= enough)%nat) by (unfold enough; lia).
  destruct (C199_terminates enough sc a b F) as [(s & E)|E]; rewrite E; cbn [bind]; [apply IH|right; reflexivity].
Qed.
(** The self-capacitance is said to be the chain of turns plus the core.  Where
    no two turns of the winding are adjacent the core is left out too. *)
Theorem C200_core_left_out_refuted :
  (forall sc a, counted sc (wname a) (wname a) = [] -> exists s, settle enough sc a a true 0 (Some 0) nothing = Ok s /\ capacity s = 0) /\
  (exists sc cc a, core sc = Some cc /\ healthy sc /\ counted sc (wname a) (wname a) = [] /\ 0 < self_energy (core_elements sc cc (wname a))).
Proof.
  split.
  - intros sc a Z. assert (F : (2 <= enough)%nat) by (unfold enough; lia).
    destruct (settle_cases enough sc a a F) as [(_ & E)|(hi & lo & N & _)]; [|contradiction].
    eexists. split; [exact E|]. cbn [capacity]. unfold same_winding. rewrite String.eqb_refl. destruct (core sc); reflexivity.
  - exists {| windings := [{| wname := "p"; wturns := 2 |}]; turns_ := [{| twinding := "p"; tparallel := 0 |}; {| twinding := "p"; tparallel := 0 |}];
              volts := [10; 0]; among := []; core := Some [1; 1] |}, [1; 1], {| wname := "p"; wturns := 2 |}.
    split; [reflexivity|]. split; [split; [discriminate|]; intros cc X; injection X as <-; repeat constructor; lra|]. split; reflexivity.
Qed.
Example C200_witness : exists done, pairs_done coil2 = Ok done /\ healthy coil2 /\
  (exists c, find_pair ("s", "p")%string (among_windings (windings coil2) done) = Some c /\ c == 20 # 9) /\
  (exists c, find_pair ("p", "p")%string (among_windings (windings coil2) done) = Some c /\ c == 3) /\
  (exists c, find_pair ("s", "s")%string (among_windings (windings coil2) done) = Some c /\ c == 0).
Proof.
  eexists. split; [vm_compute; reflexivity|]. split.
  - split; [|discriminate]. intros p c H. cbn [among coil2 lookup] in H. repeat (destruct (pair_eqb p _); [injection H as <-; lra|]). discriminate.
  - repeat split; (eexists; split; [vm_compute; reflexivity|reflexivity]).
Qed.

(** * C201: the Maxwell matrix *)
Definition entry (m : list ((string * string) * Q)) (a b : winding) : Q := or_zero (find_pair (wname a, wname b) m).
(** What the tables of C200 give: distinct names, one capacitance for each pair,
    the same both ways. *)
Definition full (ws : list winding) (static : list ((string * string) * Q)) : Prop :=
  NoDup (map wname ws) /\
  (forall a b, In a ws -> In b ws -> exists c, find_pair (wname a, wname b) static = Some c /\ find_pair (wname b, wname a) static = Some c).
Definition sumw (ws : list winding) (f : winding -> Q) : Q := Qsum (map f ws).

Lemma sumw_ext : forall ws f g, (forall a, In a ws -> f a == g a) -> sumw ws f == sumw ws g.
Proof. unfold sumw. induction ws as [|a ws IH]; intros f g H; [reflexivity|]. cbn [map Qsum]. rewrite (H a (or_introl eq_refl)), (IH f g); [reflexivity|]. intros b I0. apply H. right. exact I0. Qed.
Lemma sumw_plus : forall ws f g, sumw ws (fun a => f a + g a) == sumw ws f + sumw ws g.
Proof. unfold sumw. induction ws as [|a ws IH]; intros f g; cbn [map Qsum]; [ring|]. rewrite IH. ring. Qed.
Lemma sumw_scale : forall ws k f, sumw ws (fun a => k * f a) == k * sumw ws f.
Proof. unfold sumw. induction ws as [|a ws IH]; intros k f; cbn [map Qsum]; [ring|]. rewrite IH. ring. Qed.
Lemma sumw_zero : forall ws, sumw ws (fun _ => 0) == 0.
Proof. unfold sumw. induction ws as [|a ws IH]; cbn [map Qsum]; [ring|]. rewrite IH. ring. Qed.
Lemma sumw_swap : forall ws us (f : winding -> winding -> Q), sumw ws (fun a => sumw us (f a)) == sumw us (fun b => sumw ws (fun a => f a b)).
Proof.
  induction ws as [|a ws IH]; intros us f.
  - unfold sumw at 1. cbn [map Qsum]. symmetry. etransitivity; [apply (sumw_ext us _ (fun _ => 0)); intros; reflexivity|apply sumw_zero].
  - unfold sumw at 1. cbn [map Qsum]. fold (sumw ws (fun a => sumw us (f a))). rewrite IH. rewrite <- sumw_plus. apply sumw_ext. intros b _. unfold sumw. cbn [map Qsum]. reflexivity.
Qed.
Lemma sumw_pick : forall ws a (g : winding -> Q), NoDup (map wname ws) -> In a ws ->
  sumw ws (fun b => if String.eqb (wname a) (wname b) then g b else 0) == g a.
Proof.
  induction ws as [|x ws IH]; intros a g D I0; [contradiction|]. cbn [map] in D. apply NoDup_cons_iff in D. destruct D as (D1 & D2).
  unfold sumw. cbn [map Qsum]. fold (sumw ws (fun b => if String.eqb (wname a) (wname b) then g b else 0)). destruct I0 as [->|I0].
  - rewrite String.eqb_refl. assert (Z : sumw ws (fun b => if String.eqb (wname a) (wname b) then g b else 0) == 0); [|rewrite Z; ring].
    etransitivity; [apply (sumw_ext ws _ (fun _ => 0))|apply sumw_zero]. intros b IB. destruct (String.eqb_spec (wname a) (wname b)) as [E|E]; [|reflexivity].
    exfalso. apply D1. rewrite E. apply in_map, IB.
  - rewrite (IH a g D2 I0). destruct (String.eqb_spec (wname a) (wname x)) as [E|E]; [|ring]. exfalso. apply D1. rewrite <- E. apply in_map, I0.
Qed.

(** One row. *)
Lemma row_fold : forall static a bs sum m,
  (forall b, In b bs -> exists c, find_pair (wname a, wname b) static = Some c) ->
  let out := fold_left (fun st b => match find_pair (wname a, wname b) static with
      | Some c => (fst st + c, if String.eqb (wname a) (wname b) then snd st else ((wname b, wname a), - c) :: ((wname a, wname b), - c) :: snd st)
      | None => st end) bs (sum, m) in
  fst out == sum + sumw bs (fun b => entry static a b) /\
  (forall x, find_pair (x, x) (snd out) = find_pair (x, x) m) /\
  (forall p v, find_pair p (snd out) = Some v -> find_pair p m = Some v \/
     exists b, In b bs /\ wname a <> wname b /\ (p = (wname a, wname b) \/ p = (wname b, wname a)) /\ v = - entry static a b) /\
  (forall p, find_pair p m <> None -> find_pair p (snd out) <> None) /\
  (forall b, In b bs -> wname a <> wname b -> find_pair (wname a, wname b) (snd out) <> None /\ find_pair (wname b, wname a) (snd out) <> None).
Proof.
  intros static a. induction bs as [|b bs IH]; intros sum m H; cbv zeta.
  - cbn [fold_left fst snd]. unfold sumw. cbn [map Qsum]. repeat split; try contradiction; auto. ring.
  - cbn [fold_left fst snd]. destruct (H b (or_introl eq_refl)) as (c & F). rewrite F.
    assert (EC : entry static a b = c) by (unfold entry; rewrite F; reflexivity).
    set (m' := if String.eqb (wname a) (wname b) then m else ((wname b, wname a), - c) :: ((wname a, wname b), - c) :: m).
    destruct (IH (sum + c) m') as (A & B & C & D & E); [intros x I0; apply H; right; exact I0|].
    set (out := fold_left _ bs (sum + c, m')) in *.
    split; [rewrite A; unfold sumw; cbn [map Qsum]; rewrite EC; ring|]. split; [|split; [|split]].
    + intro x. rewrite B. unfold m'. destruct (String.eqb_spec (wname a) (wname b)) as [_|N]; [reflexivity|].
      rewrite !fp_cons. rewrite !np_neq; [reflexivity| |]; intro Z; apply N; pose proof (f_equal fst Z); pose proof (f_equal snd Z); cbn [fst snd] in *; congruence.
    + intros p v X. destruct (C p v X) as [Y|(x & I0 & N & K & V)]; [|right; exists x; split; [right; exact I0|auto]].
      unfold m' in Y. destruct (String.eqb_spec (wname a) (wname b)) as [_|N]; [left; exact Y|].
      rewrite !fp_cons in Y. destruct (name_pair_eqb p (wname b, wname a)) eqn:E1.
      { apply np_eq in E1. right. exists b. split; [left; reflexivity|]. split; [exact N|]. split; [right; exact E1|]. rewrite EC. congruence. }
      destruct (name_pair_eqb p (wname a, wname b)) eqn:E2; [|left; exact Y].
      apply np_eq in E2. right. exists b. split; [left; reflexivity|]. split; [exact N|]. split; [left; exact E2|]. rewrite EC. congruence.
    + intros p X. apply D. unfold m'. destruct (String.eqb (wname a) (wname b)); [exact X|]. rewrite !fp_cons. destruct (name_pair_eqb p (wname b, wname a)), (name_pair_eqb p (wname a, wname b)); try discriminate. exact X.
    + intros x [->|I0] N; [|apply E; assumption]. assert (Y : String.eqb (wname a) (wname x) = false) by (apply String.eqb_neq, N).
      split; apply D; unfold m'; rewrite Y, !fp_cons, np_refl; [destruct (name_pair_eqb (wname a, wname x) (wname x, wname a))|]; discriminate.
Qed.
(** What the matrix may hold at a key. *)
Definition held (ws : list winding) (static : list ((string * string) * Q)) (p : string * string) (v : Q) : Prop :=
  exists a b, In a ws /\ In b ws /\ p = (wname a, wname b) /\
    ((wname a <> wname b /\ v = - entry static a b) \/ (wname a = wname b /\ v == sumw ws (fun b => entry static a b))).
Lemma row_held : forall ws static a m, full ws static -> In a ws -> (forall p v, find_pair p m = Some v -> held ws static p v) ->
  (forall p v, find_pair p (maxwell_row static ws a m) = Some v -> held ws static p v) /\
  (forall p, find_pair p m <> None -> find_pair p (maxwell_row static ws a m) <> None) /\
  (forall b, In b ws -> find_pair (wname a, wname b) (maxwell_row static ws a m) <> None /\ find_pair (wname b, wname a) (maxwell_row static ws a m) <> None).
Proof.
  intros ws static a m (ND & FL) IA P. unfold maxwell_row.
  destruct (row_fold static a ws 0 m) as (A & B & C & D & E); [intros b IB; destruct (FL a b IA IB) as (c & X & _); eauto|].
  destruct (fold_left _ ws (0, m)) as (sum, m') eqn:F. cbn [fst snd] in *.
  split; [|split].
  - intros p v. rewrite fp_cons. destruct (name_pair_eqb p (wname a, wname a)) eqn:X.
    + apply np_eq in X. intro Y. pose proof (f_equal or_zero Y) as Z. cbn [or_zero] in Z. exists a, a. split; [exact IA|]. split; [exact IA|]. split; [exact X|]. right. split; [reflexivity|]. rewrite <- Z, A. ring.
    + intro Y. destruct (C p v Y) as [Z|(b & IB & N & K & V)]; [apply P, Z|]. destruct K as [K|K].
      * exists a, b. split; [exact IA|]. split; [exact IB|]. split; [exact K|]. left. auto.
      * exists b, a. split; [exact IB|]. split; [exact IA|]. split; [exact K|]. left. split; [congruence|]. rewrite V. f_equal.
        destruct (FL a b IA IB) as (c & X1 & X2). unfold entry. rewrite X1, X2. reflexivity.
  - intros p X. rewrite fp_cons. destruct (name_pair_eqb p (wname a, wname a)); [discriminate|apply D, X].
  - intros b IB. destruct (String.eqb_spec (wname a) (wname b)) as [X|X].
    + rewrite <- X. rewrite fp_cons, np_refl. split; discriminate.
    + destruct (E b IB X) as (Y & Z). rewrite !fp_cons. split; (destruct (name_pair_eqb _ (wname a, wname a)); [discriminate|assumption]).
Qed.
Lemma maxwell_held : forall ws static, full ws static ->
  (forall p v, find_pair p (maxwell ws static) = Some v -> held ws static p v) /\
  (forall a b, In a ws -> In b ws -> find_pair (wname a, wname b) (maxwell ws static) <> None).
Proof.
  intros ws static FL. unfold maxwell.
  assert (G : forall l m, incl l ws -> (forall p v, find_pair p m = Some v -> held ws static p v) ->
    (forall p v, find_pair p (fold_left (fun m a => maxwell_row static ws a m) l m) = Some v -> held ws static p v) /\
    (forall p, find_pair p m <> None -> find_pair p (fold_left (fun m a => maxwell_row static ws a m) l m) <> None) /\
    (forall a b, In a l -> In b ws -> find_pair (wname a, wname b) (fold_left (fun m a => maxwell_row static ws a m) l m) <> None)).
  { induction l as [|a l IH]; intros m L P; cbn [fold_left]; [repeat split; auto; contradiction|].
    destruct (row_held ws static a m FL (L a (or_introl eq_refl)) P) as (A & B & C).
    destruct (IH (maxwell_row static ws a m)) as (A' & B' & C'); [intros x I0; apply L; right; exact I0|exact A|].
    split; [exact A'|]. split; [intros p X; apply B', B, X|]. intros x b [->|IX] IB; [apply B', C, IB|apply C'; assumption]. }
  destruct (G ws [] (incl_refl _)) as (A & _ & C); [discriminate|]. split; [exact A|exact C].
Qed.
Lemma same_name : forall ws a b, NoDup (map wname ws) -> In a ws -> In b ws -> wname a = wname b -> a = b.
Proof.
  induction ws as [|x ws IH]; intros a b D IA IB E; [contradiction|]. cbn [map] in D. apply NoDup_cons_iff in D. destruct D as (D1 & D2).
  destruct IA as [->|IA], IB as [->|IB]; [reflexivity| | |apply (IH a b D2 IA IB E)]; exfalso; apply D1; [rewrite E; apply in_map, IB|rewrite <- E; apply in_map, IA].
Qed.
(** Off the diagonal minus the capacitance of the pair, on the diagonal the sum. *)
Theorem C201_entries : forall ws static, full ws static -> forall a b, In a ws -> In b ws ->
  (wname a <> wname b -> entry (maxwell ws static) a b == - entry static a b) /\
  entry (maxwell ws static) a a == sumw ws (fun b => entry static a b) /\
  entry (maxwell ws static) a b == entry (maxwell ws static) b a.
Proof.
  intros ws static FL a b IA IB. destruct (maxwell_held ws static FL) as (H & K). pose proof FL as (ND & F2).
  assert (OFF : forall x y, In x ws -> In y ws -> wname x <> wname y -> entry (maxwell ws static) x y == - entry static x y).
  { intros x y IX IY N. unfold entry at 1. specialize (K x y IX IY). destruct (find_pair _ (maxwell ws static)) as [v|] eqn:E; [|contradiction].
    destruct (H _ _ E) as (x' & y' & IX' & IY' & P & [(N' & V)|(N' & V)]); pose proof (f_equal fst P) as P1; pose proof (f_equal snd P) as P2; cbn [fst snd] in *.
    - rewrite (same_name ws x x' ND IX IX' P1), (same_name ws y y' ND IY IY' P2). cbn [or_zero]. rewrite V. reflexivity.
    - congruence. }
  split; [apply OFF; assumption|]. split.
  - unfold entry at 1. specialize (K a a IA IA). destruct (find_pair _ (maxwell ws static)) as [v|] eqn:E; [|contradiction].
    destruct (H _ _ E) as (x' & y' & IX' & IY' & P & [(N' & V)|(N' & V)]); pose proof (f_equal fst P) as P1; pose proof (f_equal snd P) as P2; cbn [fst snd] in *; [congruence|].
    rewrite (same_name ws a x' ND IA IX' P1). exact V.
  - destruct (string_dec (wname a) (wname b)) as [E|N]; [rewrite (same_name ws a b ND IA IB E); reflexivity|].
    rewrite !OFF by (try assumption; congruence). destruct (F2 a b IA IB) as (c & X & Y). unfold entry. rewrite X, Y. reflexivity.
Qed.
(** The rows add up to the self-capacitance. *)
Lemma entry_split : forall ws static a b, full ws static -> In a ws -> In b ws ->
  entry (maxwell ws static) a b == (if String.eqb (wname a) (wname b) then sumw ws (fun d => entry static a d) + entry static a b else 0) - entry static a b.
Proof.
  intros ws static a b FL IA IB. destruct (C201_entries ws static FL a b IA IB) as (A & B & _). destruct (String.eqb_spec (wname a) (wname b)) as [E|N].
  - rewrite <- (same_name ws a b (proj1 FL) IA IB E), B. ring.
  - rewrite (A N). ring.
Qed.
Theorem C201_row_sum : forall ws static, full ws static -> forall a, In a ws ->
  sumw ws (fun b => entry (maxwell ws static) a b) == entry static a a.
Proof.
  intros ws static FL a IA.
  etransitivity; [apply (sumw_ext ws _ (fun b => (if String.eqb (wname a) (wname b) then sumw ws (fun d => entry static a d) + entry static a b else 0) + (- (1)) * entry static a b))|].
  { intros b IB. rewrite (entry_split ws static a b FL IA IB). ring. }
  rewrite sumw_plus, (sumw_scale ws (- (1)) (fun d => entry static a d)). rewrite (sumw_pick ws a (fun b => sumw ws (fun d => entry static a d) + entry static a b) (proj1 FL) IA). ring.
Qed.
(** As a quadratic form it is twice the energy of the capacitors: every winding
    against ground and every two windings against each other. *)
Theorem C201_energy : forall ws static (v : winding -> Q), full ws static ->
  sumw ws (fun a => sumw ws (fun b => entry (maxwell ws static) a b * (v a * v b))) ==
  sumw ws (fun a => entry static a a * (v a * v a)) +
  (1 # 2) * sumw ws (fun a => sumw ws (fun b => entry static a b * ((v a - v b) * (v a - v b)))).
Proof.
  intros ws static v FL.
  assert (SY : forall a b, In a ws -> In b ws -> entry static a b == entry static b a).
  { intros a b IA IB. destruct (proj2 FL a b IA IB) as (c & X & Y). unfold entry. rewrite X, Y. reflexivity. }
  assert (L : forall a, In a ws -> sumw ws (fun b => entry (maxwell ws static) a b * (v a * v b)) ==
     entry static a a * (v a * v a) + (sumw ws (fun b => entry static a b * (v a * v a)) - sumw ws (fun b => entry static a b * (v a * v b)))).
  { intros a IA.
    etransitivity; [apply (sumw_ext ws _ (fun b => (if String.eqb (wname a) (wname b) then (sumw ws (fun d => entry static a d) + entry static a b) * (v a * v b) else 0) + (- (1)) * (entry static a b * (v a * v b))))|].
    { intros b IB. rewrite (entry_split ws static a b FL IA IB). destruct (String.eqb (wname a) (wname b)); ring. }
    rewrite sumw_plus, sumw_scale. rewrite (sumw_pick ws a (fun b => (sumw ws (fun d => entry static a d) + entry static a b) * (v a * v b)) (proj1 FL) IA).
    assert (E : sumw ws (fun b => entry static a b * (v a * v a)) == sumw ws (fun d => entry static a d) * (v a * v a)).
    { rewrite (Qmult_comm (sumw ws _) (v a * v a)), <- sumw_scale. apply sumw_ext. intros b _. ring. }
    rewrite E. ring. }
  rewrite (sumw_ext ws _ _ L). rewrite sumw_plus.
  assert (T : sumw ws (fun a => sumw ws (fun b => entry static a b * ((v a - v b) * (v a - v b)))) ==
     2 * sumw ws (fun a => sumw ws (fun b => entry static a b * (v a * v a)) - sumw ws (fun b => entry static a b * (v a * v b)))).
  { assert (SW : sumw ws (fun a => sumw ws (fun b => entry static a b * (v b * v b))) == sumw ws (fun a => sumw ws (fun b => entry static a b * (v a * v a)))).
    { rewrite sumw_swap. apply sumw_ext. intros a IA. apply sumw_ext. intros b IB. rewrite (SY b a IB IA). reflexivity. }
    assert (A1 : sumw ws (fun a => sumw ws (fun b => entry static a b * (v a * v a)) - sumw ws (fun b => entry static a b * (v a * v b))) ==
       sumw ws (fun a => sumw ws (fun b => entry static a b * (v a * v a))) + (- (1)) * sumw ws (fun a => sumw ws (fun b => entry static a b * (v a * v b)))).
    { rewrite <- sumw_scale, <- sumw_plus. apply sumw_ext. intros a _. ring. }
    rewrite A1.
    assert (A2 : sumw ws (fun a => sumw ws (fun b => entry static a b * ((v a - v b) * (v a - v b)))) ==
       sumw ws (fun a => sumw ws (fun b => entry static a b * (v a * v a))) + sumw ws (fun a => sumw ws (fun b => entry static a b * (v b * v b))) + (- (2)) * sumw ws (fun a => sumw ws (fun b => entry static a b * (v a * v b)))).
    { rewrite <- sumw_scale, <- !sumw_plus. apply sumw_ext. intros a _. rewrite <- sumw_scale, <- !sumw_plus. apply sumw_ext. intros b _. ring. }
    rewrite A2, SW. ring. }
  rewrite T. ring.
Qed.
(** So it is positive semidefinite. *)
Theorem C201_semidefinite : forall ws static (v : winding -> Q), full ws static ->
  (forall a b, In a ws -> In b ws -> 0 <= entry static a b) ->
  0 <= sumw ws (fun a => sumw ws (fun b => entry (maxwell ws static) a b * (v a * v b))).
Proof.
  intros ws static v FL P. rewrite (C201_energy ws static v FL).
  assert (G : forall f, (forall a, In a ws -> 0 <= f a) -> 0 <= sumw ws f).
  { intros f H. unfold sumw. apply Qsum_nonneg, Forall_forall. intros y I0. apply in_map_iff in I0. destruct I0 as (a & <- & IA). apply H, IA. }
  assert (A : 0 <= sumw ws (fun a => entry static a a * (v a * v a))) by (apply G; intros a IA; apply Qmult_le_0_compat; [apply P; assumption|apply square_nonneg]).
  assert (B : 0 <= sumw ws (fun a => sumw ws (fun b => entry static a b * ((v a - v b) * (v a - v b)))));
    [apply G; intros a IA; apply G; intros b IB; apply Qmult_le_0_compat; [apply P; assumption|apply square_nonneg]|]. lra.
Qed.
(** And that is what the coil gets. *)
Theorem C201_of_coil : forall sc done, pairs_done sc = Ok done -> NoDup (map wname (windings sc)) ->
  full (windings sc) (among_windings (windings sc) done) /\
  (healthy sc -> forall a b, In a (windings sc) -> In b (windings sc) -> 0 <= entry (among_windings (windings sc) done) a b).
Proof.
  intros sc done H D. split.
  - split; [exact D|]. intros a b IA IB. destruct (C200_every_pair sc done H a b IA IB) as (c & X & Y & _). eauto.
  - intros HH a b IA IB. destruct (C200_every_pair sc done H a b IA IB) as (c & X & _ & _ & Z). unfold entry. rewrite X. apply Z, HH.
Qed.
Example C201_witness : exists done, pairs_done coil2 = Ok done /\ NoDup (map wname (windings coil2)) /\
  entry (maxwell (windings coil2) (among_windings (windings coil2) done)) {| wname := "p"; wturns := 2 |} {| wname := "p"; wturns := 2 |} == 47 # 9 /\
  entry (maxwell (windings coil2) (among_windings (windings coil2) done)) {| wname := "s"; wturns := 2 |} {| wname := "p"; wturns := 2 |} == - (20 # 9).
Proof.
  eexists. split; [vm_compute; reflexivity|]. split; [|split; vm_compute; reflexivity].
  cbn. constructor; [intros [X|[]]; discriminate|]. constructor; [intros []|constructor].
Qed.

(** * C202: the equivalent circuits and the tables over turns *)
(** Energy of the six capacitors for the potentials of the four terminals. *)
Definition six_energy (c0 p1 p2 s1 s2 : Q) : Q :=
  let '(c1, c2, c3, c4, c5, c6) := six_network c0 in
  (1 # 2) * (c1 * ((p1 - p2) * (p1 - p2)) + c2 * ((s1 - s2) * (s1 - s2)) + c3 * ((p1 - s1) * (p1 - s1)) +
             c4 * ((p2 - s2) * (p2 - s2)) + c5 * ((p1 - s2) * (p1 - s2)) + c6 * ((p2 - s1) * (p2 - s1))).
(** The two windings cut in [n] equal pieces, each at its mean potential, with
    the capacitance spread evenly between facing pieces. *)
Definition position (n k : nat) : Q := (2 * inject_Z (Z.of_nat k) + 1) / (2 * inject_Z (Z.of_nat n)).
Definition between (hi lo x : Q) : Q := hi + (lo - hi) * x.
Fixpoint sum_to (f : nat -> Q) (n : nat) : Q := match n with O => 0 | S k => sum_to f k + f k end.
Definition spread_energy (n : nat) (c0 p1 p2 s1 s2 : Q) : Q :=
  sum_to (fun k => let d := between p1 p2 (position n k) - between s1 s2 (position n k) in
                   (1 # 2) * (c0 / inject_Z (Z.of_nat n)) * (d * d)) n.
Definition nq (k : nat) : Q := inject_Z (Z.of_nat k).
Lemma nq_S : forall k, nq (S k) == nq k + 1.
Proof. intro k. unfold nq. rewrite Nat2Z.inj_succ. unfold Z.succ. rewrite inject_Z_plus. reflexivity. Qed.
Lemma sum_to_ext : forall f g n, (forall k, f k == g k) -> sum_to f n == sum_to g n.
Proof. induction n as [|n IH]; intro H; [reflexivity|]. cbn [sum_to]. rewrite (IH H), (H n). reflexivity. Qed.
Lemma sum_quad : forall A B C n, sum_to (fun k => A + B * (2 * nq k + 1) + C * ((2 * nq k + 1) * (2 * nq k + 1))) n ==
  A * nq n + B * (nq n * nq n) + C * (nq n * (4 * (nq n * nq n) - 1) * (1 # 3)).
Proof. induction n as [|n IH]; cbn [sum_to]; [assert (Z : nq 0 == 0) by reflexivity; rewrite Z; ring|]. rewrite IH, nq_S. ring. Qed.
(** The network stores what the windings store, whatever the four potentials:
    with finer and finer pieces the difference goes to zero. *)
Theorem C202_six_network : forall n c0 p1 p2 s1 s2, (1 <= n)%nat ->
  (six_energy c0 p1 p2 s1 s2 - spread_energy n c0 p1 p2 s1 s2) * (24 * (nq n * nq n)) ==
    c0 * (((p1 - p2) - (s1 - s2)) * ((p1 - p2) - (s1 - s2))).
Proof.
  intros n c0 p1 p2 s1 s2 N. assert (P : 0 < nq n) by (unfold nq; change 0 with (inject_Z 0); apply inj_lt; lia).
  assert (S : spread_energy n c0 p1 p2 s1 s2 == (1 # 2) * c0 * ((p1 - s1) * (p1 - s1) + (p1 - s1) * ((p2 - s2) - (p1 - s1)) + ((p2 - s2) - (p1 - s1)) * ((p2 - s2) - (p1 - s1)) * (4 * (nq n * nq n) - 1) / (12 * (nq n * nq n)))).
  { unfold spread_energy, position, between. fold (nq n).
    rewrite (sum_to_ext _ (fun k => (1 # 2) * (c0 / nq n) * ((p1 - s1) * (p1 - s1)) + ((c0 / nq n) * (p1 - s1) * ((p2 - s2) - (p1 - s1)) / (2 * nq n)) * (2 * nq k + 1) +
       ((1 # 2) * (c0 / nq n) * (((p2 - s2) - (p1 - s1)) * ((p2 - s2) - (p1 - s1))) / (4 * (nq n * nq n))) * ((2 * nq k + 1) * (2 * nq k + 1)))).
    - rewrite sum_quad. field. lra.
    - intro k. cbv zeta. fold (nq k). field. lra. }
  rewrite S. unfold six_energy. cbn [six_network]. field. lra.
Qed.
(** The sum of all six is the capacitance with each winding at one potential. *)
Theorem C202_six_equipotential : forall c0 u w, six_energy c0 u u w w == (1 # 2) * c0 * ((u - w) * (u - w)).
Proof. intros. unfold six_energy. cbn [six_network]. field. Qed.

(** Three capacitors for each pair. *)
Lemma tri_fold : forall static l m out,
  fold_left (fun m (ab : winding * winding) => match find_pair (wname (fst ab), wname (snd ab)) static with
    | Some c => ((wname (snd ab), wname (fst ab)), (or_zero (find_pair (wname (fst ab), wname (fst ab)) static), or_zero (find_pair (wname (snd ab), wname (snd ab)) static), c)) ::
                ((wname (fst ab), wname (snd ab)), (or_zero (find_pair (wname (fst ab), wname (fst ab)) static), or_zero (find_pair (wname (snd ab), wname (snd ab)) static), c)) :: m
    | None => m end) l m = out ->
  (forall a b, In (a, b) l -> forall c, find_pair (wname a, wname b) static = Some c -> ~ In (wname a, wname b) (map (fun ab => (wname (snd ab), wname (fst ab))) l)  ->
     NoDup (map (fun ab => (wname (fst ab), wname (snd ab))) l) ->
     find_pair (wname a, wname b) out = Some (or_zero (find_pair (wname a, wname a) static), or_zero (find_pair (wname b, wname b) static), c) /\
     (~ In (wname b, wname a) (map (fun ab => (wname (fst ab), wname (snd ab))) l) ->
      find_pair (wname b, wname a) out = Some (or_zero (find_pair (wname a, wname a) static), or_zero (find_pair (wname b, wname b) static), c))) /\
  (forall p, ~ In p (map (fun ab => (wname (snd ab), wname (fst ab))) l) -> ~ In p (map (fun ab => (wname (fst ab), wname (snd ab))) l) -> find_pair p out = find_pair p m).
Proof.
  intros static. induction l as [|(a, b) l IH]; intros m out H.
  - cbn [fold_left] in H. subst out. split; [contradiction|reflexivity].
  - cbn [fold_left fst snd] in H. destruct (IH _ _ H) as (A & B). cbn [map fst snd]. split.
    + intros x y [X|X] c F N1 N2; apply NoDup_cons_iff in N2; destruct N2 as (N2 & N3).
      * injection X as <- <-. rewrite F in *. cbn [In] in N1.
        assert (NE : (wname a, wname b) <> (wname b, wname a)) by (intro Z; apply N1; left; congruence).
        split.
        -- rewrite B; [|tauto|exact N2]. rewrite !fp_cons, np_refl. rewrite np_neq by exact NE. reflexivity.
        -- intro N4. rewrite B; [rewrite fp_cons, np_refl; reflexivity| |intro Z; apply N4; right; exact Z].
           intro Z. apply N2. apply in_map_iff in Z. destruct Z as ((x, y) & Z & I0). cbn [fst snd] in Z. apply in_map_iff. exists (x, y). split; [|exact I0]. cbn [fst snd]. pose proof (f_equal fst Z). pose proof (f_equal snd Z). cbn [fst snd] in *. congruence.
      * cbn [In] in N1. destruct (A x y X c F) as (C & D); [tauto|exact N3|]. split; [exact C|]. intro N4. apply D. intro Z. apply N4. right. exact Z.
    + intros p N1 N2. cbn [In] in N1, N2. rewrite B by tauto. destruct (find_pair (wname a, wname b) static); [|reflexivity].
      rewrite !fp_cons. rewrite !np_neq; [reflexivity| |]; intro Z; [apply N2|apply N1]; left; congruence.
Qed.
Lemma later_in : forall ws a b, In (a, b) (later_pairs ws) -> In a ws /\ In b ws.
Proof.
  induction ws as [|x ws IH]; intros a b H; [contradiction|]. cbn [later_pairs] in H. apply in_app_iff in H. destruct H as [H|H].
  - apply in_map_iff in H. destruct H as (y & E & I0). injection E as <- <-. split; [left; reflexivity|right; exact I0].
  - destruct (IH a b H). split; right; assumption.
Qed.
Lemma later_once : forall ws a b, NoDup (map wname ws) -> In (a, b) (later_pairs ws) ->
  ~ In (wname a, wname b) (map (fun ab => (wname (snd ab), wname (fst ab))) (later_pairs ws)).
Proof.
  induction ws as [|x ws IH]; intros a b D H; [contradiction|]. cbn [map] in D. apply NoDup_cons_iff in D. destruct D as (D1 & D2).
  cbn [later_pairs] in *. intro Z. rewrite map_app, in_app_iff in Z. apply in_app_iff in H.
  assert (NX : forall y, In y ws -> wname y <> wname x) by (intros y IY E; apply D1; rewrite <- E; apply in_map, IY).
  destruct H as [H|H].
  - apply in_map_iff in H. destruct H as (y & E & I0). injection E as <- <-. destruct Z as [Z|Z].
    + rewrite map_map in Z. apply in_map_iff in Z. destruct Z as (z & E & IZ). cbn [fst snd] in E. pose proof (f_equal fst E) as E1. cbn [fst] in E1. apply (NX z IZ E1).
    + apply in_map_iff in Z. destruct Z as ((u, w) & E & IZ). apply later_in in IZ. cbn [fst snd] in E. pose proof (f_equal fst E) as E1. cbn [fst] in E1. apply (NX w (proj2 IZ) E1).
  - destruct Z as [Z|Z]; [|apply (IH a b D2 H Z)].
    rewrite map_map in Z. apply in_map_iff in Z. destruct Z as (z & E & IZ). cbn [fst snd] in E. pose proof (f_equal snd E) as E1. cbn [snd] in E1.
    apply later_in in H. apply (NX b (proj2 H)). congruence.
Qed.
Lemma later_nodup : forall ws, NoDup (map wname ws) -> NoDup (map (fun ab => (wname (fst ab), wname (snd ab))) (later_pairs ws)).
Proof.
  induction ws as [|x ws IH]; intro D; [constructor|]. cbn [map] in D. apply NoDup_cons_iff in D. destruct D as (D1 & D2). cbn [later_pairs].
  rewrite map_app, map_map. cbn [fst snd].
  assert (L : forall l, NoDup (map wname l) -> NoDup (map (fun b => (wname x, wname b)) l)).
  { induction l as [|y l IHl]; intro DL; [constructor|]. cbn [map] in *. apply NoDup_cons_iff in DL. destruct DL as (A & B). constructor; [|apply IHl, B].
    intro Z. apply A. apply in_map_iff in Z. destruct Z as (z & E & I0). apply in_map_iff. exists z. split; [congruence|exact I0]. }
  assert (AP : forall (A : Type) (l l' : list A), NoDup l -> NoDup l' -> (forall z, In z l -> ~ In z l') -> NoDup (l ++ l')).
  { intros A l l' N1 N2 F. induction l as [|z l IHl]; [exact N2|]. apply NoDup_cons_iff in N1. cbn [app]. constructor.
    - rewrite in_app_iff. intros [Z|Z]; [apply (proj1 N1 Z)|apply (F z (or_introl eq_refl) Z)].
    - apply IHl; [apply N1|]. intros y IY. apply F. right. exact IY. }
  apply AP; [apply L, D2|apply IH, D2|].
  intros z Z Z'. apply in_map_iff in Z. destruct Z as (y & <- & IY). apply in_map_iff in Z'. destruct Z' as ((u, w) & E & IU). apply later_in in IU. cbn [fst snd] in E.
  apply D1. pose proof (f_equal fst E) as E1. cbn [fst] in E1. rewrite <- E1. apply in_map, (proj1 IU).
Qed.
(** Of two windings the earlier gives the first capacitor, its own; the later the
    second; the third joins them. *)
Theorem C202_tripole : forall ws static a b, full ws static -> In (a, b) (later_pairs ws) ->
  find_pair (wname a, wname b) (tripoles ws static) = Some (entry static a a, entry static b b, entry static a b) /\
  find_pair (wname b, wname a) (tripoles ws static) = Some (entry static a a, entry static b b, entry static a b).
Proof.
  intros ws static a b (D & F) H. pose proof (later_in ws a b H) as (IA & IB). destruct (F a b IA IB) as (c & X & _).
  destruct (tri_fold static (later_pairs ws) [] (tripoles ws static) eq_refl) as (T & _).
  destruct (T a b H c X (later_once ws a b D H) (later_nodup ws D)) as (T1 & T2).
  assert (EC : entry static a b = c) by (unfold entry; rewrite X; reflexivity). rewrite EC. split; [exact T1|]. apply T2.
  intro Z. apply (later_once ws a b D H). apply in_map_iff in Z. destruct Z as ((u, w) & E & IU). cbn [fst snd] in E. apply in_map_iff. exists (u, w). split; [|exact IU].
  cbn [fst snd]. pose proof (f_equal fst E). pose proof (f_equal snd E). cbn [fst snd] in *. congruence.
Qed.
(** Read under the names the other way round the first capacitor is not that of
    the first winding. *)
Theorem C202_tripole_reversed_refuted : exists ws static a b, full ws static /\ In a ws /\ In b ws /\
  exists t, find_pair (wname a, wname b) (tripoles ws static) = Some t /\ ~ fst (fst t) == entry static a a.
Proof.
  exists [{| wname := "p"; wturns := 2 |}; {| wname := "s"; wturns := 2 |}],
         [(("p", "p")%string, 1); (("s", "s")%string, 2); (("p", "s")%string, 3); (("s", "p")%string, 3)], {| wname := "s"; wturns := 2 |}, {| wname := "p"; wturns := 2 |}.
  split.
  - split; [cbn; constructor; [intros [X|[]]; discriminate|constructor; [intros []|constructor]]|].
    intros a b [<-|[<-|[]]] [<-|[<-|[]]]; eexists; split; reflexivity.
  - split; [right; left; reflexivity|]. split; [left; reflexivity|]. eexists. split; [reflexivity|]. vm_compute. discriminate.
Qed.

(** The tables over turns. *)
Lemma lookup_in : forall A p (a : A) m, lookup p m = Some a -> In (p, a) m.
Proof.
  induction m as [|(q, b) m IH]; intro H; [discriminate|]. rewrite lookup_cons in H. destruct (pair_eqb p q) eqn:E; [apply pair_eqb_eq in E; injection H as ->; left; congruence|right; apply IH, H].
Qed.
Lemma row_of_loop : forall sc a b s p r, settle enough sc a b true 0 (Some 0) nothing = Ok s -> In (p, r) (rows s) ->
  exists c, In (p, c) (counted sc (wname a) (wname b)) /\ lookup p (among sc) = Some c /\ fst r = (1 # 2) * c * (snd r * snd r).
Proof.
  intros sc a b s p r H I0. assert (F : (2 <= enough)%nat) by (unfold enough; lia).
  assert (G : forall v3 hi lo, pass_result sc a b v3 hi lo = Ok s -> exists c, In (p, c) (counted sc (wname a) (wname b)) /\ lookup p (among sc) = Some c /\ fst r = (1 # 2) * c * (snd r * snd r)).
  { intros v3 hi lo X. destruct (pass_capacity sc a b v3 hi lo s X) as (_ & R & _). rewrite R in I0. unfold pair_rows in I0. apply in_map_iff in I0.
    destruct I0 as ((q, c) & E & I0). cbn [fst snd] in E. exists c. pose proof (f_equal fst E) as E1. pose proof (f_equal snd E) as E2. cbn [fst snd] in E1, E2. subst q r.
    split; [exact I0|]. split; [apply (counted_in _ _ _ _ _ I0)|]. reflexivity. }
  destruct (settle_cases enough sc a b F) as [(_ & E)|(hi & lo & _ & _ & [E|(_ & E)])]; rewrite E in H.
  - injection H as <-. contradiction.
  - eapply G, H.
  - eapply G, H.
Qed.
(** The energy of every two turns is half their capacitance times the square of
    their voltage. *)
Theorem C202_turn_energy : forall sc done p, pairs_done sc = Ok done -> (forall q, lookup q (among sc) = lookup (flip q) (among sc)) ->
  energy_out (all_rows done) p == (1 # 2) * capacitance_out (among sc) p * (drop_out (all_rows done) p * drop_out (all_rows done) p).
Proof.
  intros sc done p H SY. destruct (pairs_done_inv sc done H) as (S & P & _).
  assert (G : forall q r, lookup q (all_rows done) = Some r -> exists c, lookup q (among sc) = Some c /\ fst r = (1 # 2) * c * (snd r * snd r)).
  { intros q r X. apply lookup_in in X. unfold all_rows in X. apply in_flat_map in X. destruct X as ((k, s) & I1 & I2). cbn [snd] in I2.
    destruct (P k s I1) as (a & b & _ & _ & E). destruct (row_of_loop sc a b s q r E I2) as (c & _ & L & V). eauto. }
  unfold energy_out, drop_out, capacitance_out. destruct (lookup p (all_rows done)) as [r|] eqn:E1.
  - destruct (G p r E1) as (c & L & V). rewrite L, V. reflexivity.
  - destruct (lookup (flip p) (all_rows done)) as [r|] eqn:E2; [|ring].
    destruct (G (flip p) r E2) as (c & L & V). rewrite SY, L, V. ring.
Qed.
Lemma fresh_in : forall ps seen p, In p (fresh seen ps) -> In p ps /\ ~ In p seen /\ ~ In (flip p) seen.
Proof.
  induction ps as [|q ps IH]; intros seen p H; [contradiction|]. cbn [fresh] in H. destruct (met q seen) eqn:M.
  - destruct (IH seen p H) as (A & B & C). split; [right; exact A|auto].
  - destruct H as [->|H].
    + split; [left; reflexivity|]. split; intro X; assert (met p seen = true) by (apply met_iff; tauto); congruence.
    + destruct (IH (q :: seen) p H) as (A & B & C). split; [right; exact A|]. split; intro X; [apply B|apply C]; right; exact X.
Qed.
Lemma fresh_once : forall ps seen p, In p (fresh seen ps) -> In (flip p) (fresh seen ps) -> p = flip p.
Proof.
  induction ps as [|q ps IH]; intros seen p H1 H2; [contradiction|]. cbn [fresh] in *. destruct (met q seen); [apply (IH seen p H1 H2)|].
  destruct H1 as [H1|H1], H2 as [H2|H2]; [congruence| | |apply (IH (q :: seen) p H1 H2)].
  - exfalso. apply fresh_in in H2. destruct H2 as (_ & _ & X). apply X. left. rewrite flip_flip. exact H1.
  - exfalso. apply fresh_in in H1. destruct H1 as (_ & _ & X). apply X. left. exact H2.
Qed.
Lemma counted_fresh : forall sc a b p c, In (p, c) (counted sc a b) -> In p (fresh [] (list_prod (indexes sc a) (indexes sc b))).
Proof.
  intros sc a b p c H. unfold counted in H. apply in_flat_map in H. destruct H as (q & I0 & X). destruct (lookup q (among sc)); [|contradiction]. destruct X as [X|[]]. congruence.
Qed.
Lemma index_name : forall sc a i, In i (indexes sc a) -> exists t, nth_error (turns_ sc) i = Some t /\ twinding t = a.
Proof.
  intros sc a i H. unfold indexes in H. apply filter_In in H. destruct H as (_ & H). destruct (nth_error (turns_ sc) i) as [t|]; [|discriminate]. exists t. split; [reflexivity|apply String.eqb_eq, H].
Qed.
(** No two turns are entered both ways, so energies are symmetric and voltages
    change sign with the order. *)
Theorem C202_turn_symmetry : forall sc done i j, pairs_done sc = Ok done -> i <> j ->
  energy_out (all_rows done) (i, j) == energy_out (all_rows done) (j, i) /\
  drop_out (all_rows done) (i, j) == - drop_out (all_rows done) (j, i).
Proof.
  intros sc done i j H N. destruct (pairs_done_inv sc done H) as (S & P & _).
  assert (G : forall q r, lookup q (all_rows done) = Some r -> exists k s a b c, In (k, s) done /\ k = (wname a, wname b) /\ In (q, c) (counted sc (wname a) (wname b))).
  { intros q r X. apply lookup_in in X. unfold all_rows in X. apply in_flat_map in X. destruct X as ((k, s) & I1 & I2). cbn [snd] in I2.
    destruct (P k s I1) as (a & b & _ & K & E). destruct (row_of_loop sc a b s q r E I2) as (c & C & _). exists k, s, a, b, c. auto. }
  assert (B : forall r r', lookup (i, j) (all_rows done) = Some r -> lookup (j, i) (all_rows done) = Some r' -> False).
  { intros r r' X Y. destruct (G _ _ X) as (k & s & a & b & c & I1 & K & C). destruct (G _ _ Y) as (k' & s' & a' & b' & c' & I1' & K' & C').
    pose proof (counted_fresh _ _ _ _ _ C) as FR. pose proof (counted_fresh _ _ _ _ _ C') as FR'.
    pose proof (proj1 (fresh_in _ _ _ FR)) as L. pose proof (proj1 (fresh_in _ _ _ FR')) as L'. apply in_prod_iff in L. apply in_prod_iff in L'.
    destruct (index_name sc _ _ (proj1 L)) as (t & T1 & T2). destruct (index_name sc _ _ (proj2 L)) as (u & U1 & U2).
    destruct (index_name sc _ _ (proj1 L')) as (u' & U1' & U2'). destruct (index_name sc _ _ (proj2 L')) as (t' & T1' & T2').
    assert (W1 : wname a' = wname b) by congruence. assert (W2 : wname b' = wname a) by congruence.
    destruct (single_unique _ _ k s k' s' S I1 I1') as (KK & _); [right; rewrite K, K', W1, W2; reflexivity|].
    assert (WE : wname a = wname b) by (rewrite K, K' in KK; pose proof (f_equal fst KK) as Z; cbn [fst] in Z; congruence).
    rewrite W1, W2, <- WE in FR'. rewrite <- WE in FR. 
    assert (Z : (i, j) = flip (i, j)) by (apply (fresh_once _ _ _ FR FR')). unfold flip in Z. cbn [fst snd] in Z. apply N. congruence. }
  unfold energy_out, drop_out. change (flip (i, j)) with (j, i). change (flip (j, i)) with (i, j).
  destruct (lookup (i, j) (all_rows done)) as [r|] eqn:E1, (lookup (j, i) (all_rows done)) as [r'|] eqn:E2; [exfalso; apply (B r r'); reflexivity| | |]; split; ring.
Qed.
Example C202_witness : exists done, pairs_done coil2 = Ok done /\
  drop_out (all_rows done) (2%nat, 1%nat) == - (20) /\ energy_out (all_rows done) (2%nat, 1%nat) == 1000 /\ energy_out (all_rows done) (1%nat, 0%nat) == 150 /\
  drop_out (all_rows done) (0%nat, 3%nat) == 0.
Proof. eexists. split; [vm_compute; reflexivity|]. repeat split. Qed.
Print Assumptions C200_every_pair.
Print Assumptions C200_ends.
Print Assumptions C200_core_left_out_refuted.
Print Assumptions C201_entries.
Print Assumptions C201_row_sum.
Print Assumptions C201_energy.
Print Assumptions C201_semidefinite.
Print Assumptions C201_of_coil.
Print Assumptions C202_six_network.
Print Assumptions C202_six_equipotential.
Print Assumptions C202_tripole.
Print Assumptions C202_tripole_reversed_refuted.
Print Assumptions C202_turn_energy.
Print Assumptions C202_turn_symmetry.
