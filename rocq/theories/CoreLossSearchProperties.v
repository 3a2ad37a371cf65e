(** * Core losses: frequency and flux density by search (C137) *)
From Coq Require Import Reals List Lra Lia ZArith String Sorted.
From Verif Require Import Base SizingModel CoreLossModel CoreLossInverseModel.
Import ListNotations.
Local Open Scope R_scope.

(** ** C137 *)

(** The frequencies and the peaks tried. *)
Definition tried_frequency (f : R) : Prop := exists i, (i < 398)%nat /\ f = 10000 + 5000 * INR i.
Definition tried_peak (b : R) : Prop := exists i, (i < 199)%nat /\ b = 5 / 1000 + 5 / 1000 * INR i.

(** The model has losses wherever it is asked, and they grow with the argument. *)
Definition answers (losses : R -> outcome R) (tried : R -> Prop) (g : R -> R) : Prop :=
  forall x, tried x -> losses x = Ok (g x).
Definition growing (g : R -> R) (low high : R) : Prop :=
  forall x y, low <= x -> x < y -> y <= high -> g x < g y.

(** ** The grid *)

Lemma grid_In : forall first step n x, In x (grid first step n) <-> exists i, (i < n)%nat /\ x = first + step * INR i.
Proof.
  intros first step n x. unfold grid. rewrite in_map_iff. split.
  - intros (i & <- & I). apply in_seq in I. exists i. split; [lia|reflexivity].
  - intros (i & I & ->). exists i. split; [reflexivity|]. apply in_seq. lia.
Qed.

Lemma grid_sorted_from : forall first step n s, 0 < step ->
  StronglySorted Rlt (map (fun i => first + step * INR i) (seq s n)).
Proof.
  intros first step n. induction n as [|n IH]; intros s P; simpl; constructor; [apply IH; exact P|].
  apply Forall_forall. intros x X. apply in_map_iff in X. destruct X as (i & <- & I). apply in_seq in I.
  apply Rplus_lt_compat_l. apply Rmult_lt_compat_l; [exact P|]. apply lt_INR. lia.
Qed.
Lemma grid_sorted : forall first step n, 0 < step -> StronglySorted Rlt (grid first step n).
Proof. intros. apply grid_sorted_from. assumption. Qed.

Lemma grid_head : forall first step n,
  grid first step (S n) = (first + step * INR 0) :: map (fun i => first + step * INR i) (seq 1 n).
Proof. reflexivity. Qed.

Lemma scan_refused : forall losses w x rest best text,
  losses x = Throw text -> scan losses w (x :: rest) best = Throw text.
Proof. intros losses w x rest best text L. cbn [scan]. rewrite L. reflexivity. Qed.

Lemma descend_two : forall losses w a b rest u v, w <> 0 -> losses a = Ok u -> losses b = Ok v ->
  Rabs (u - w) / w < Rabs (v - w) / w -> descend losses w (a :: b :: rest) None None = Ok (Some a).
Proof.
  intros losses w a b rest u v W A B L. cbn [descend]. rewrite A, B. cbn [bind]. destruct (Req_EM_T w 0); [contradiction|].
  destruct (Rlt_dec (Rabs (v - w) / w) (Rabs (u - w) / w)); [lra|].
  destruct (Rlt_dec (Rabs (u - w) / w) (Rabs (v - w) / w)); [reflexivity|contradiction].
Qed.

Definition deviation (g : R -> R) (w x : R) : R := Rabs (g x - w) / w.

Lemma scan_best : forall losses g w, 0 < w -> forall points e x,
  (forall y, In y points -> losses y = Ok (g y)) -> e = deviation g w x ->
  exists z, scan losses w points (Some (e, x)) = Ok (Some z) /\ In z (x :: points) /\
    forall y, In y (x :: points) -> deviation g w z <= deviation g w y.
Proof.
  intros losses g w W. induction points as [|y rest IH]; intros e x A E.
  - exists x. split; [reflexivity|]. split; [left; reflexivity|]. intros z [<-|[]]. lra.
  - cbn [scan]. rewrite (A y) by (left; reflexivity). cbn [bind]. destruct (Req_EM_T w 0); [lra|].
    fold (deviation g w y).
    assert (A' : forall z, In z rest -> losses z = Ok (g z)) by (intros z Z; apply A; right; exact Z).
    destruct (Rlt_dec (deviation g w y) e) as [L|L].
    + destruct (IH (deviation g w y) y A' eq_refl) as (z & S & I & M). exists z. split; [exact S|].
      split; [right; exact I|]. intros u [<-|U]; [|apply M; exact U].
      pose proof (M y (or_introl eq_refl)). lra.
    + destruct (IH e x A' E) as (z & S & I & M). exists z. split; [exact S|].
      split; [destruct I as [I|I]; [left; exact I|right; right; exact I]|].
      intros u [<-|[<-|U]]; [apply M; left; reflexivity| |apply M; right; exact U].
      pose proof (M x (or_introl eq_refl)). lra.
Qed.

Lemma deviation_le : forall g w x y, 0 < w -> deviation g w x <= deviation g w y -> Rabs (g x - w) <= Rabs (g y - w).
Proof.
  intros g w x y W L. unfold deviation in L. apply (Rmult_le_compat_r w) in L; [|lra]. unfold Rdiv in L.
  rewrite !Rmult_assoc, Rinv_l, !Rmult_1_r in L by lra. exact L.
Qed.

Lemma scan_grid : forall losses g w first step n, 0 < w -> (0 < n)%nat ->
  (forall x, In x (grid first step n) -> losses x = Ok (g x)) ->
  exists z, scan losses w (grid first step n) None = Ok (Some z) /\ In z (grid first step n) /\
    forall y, In y (grid first step n) -> Rabs (g z - w) <= Rabs (g y - w).
Proof.
  intros losses g w first step n W N A. destruct (grid first step n) as [|x rest] eqn:G.
  - assert (In (first + step * INR 0) (grid first step n)) as I by (apply grid_In; exists 0%nat; auto).
    rewrite G in I. destruct I.
  - cbn [scan]. rewrite (A x) by (left; reflexivity). cbn [bind]. destruct (Req_EM_T w 0); [lra|].
    destruct (scan_best losses g w W rest (Rabs (g x - w) / w) x) as (z & S & I & M).
    + intros y Y. apply A. right. exact Y.
    + reflexivity.
    + exists z. split; [exact S|]. split; [exact I|]. intros y Y. apply deviation_le; [exact W|]. apply M. exact Y.
Qed.

(** The frequency is one of those tried, and none of them is nearer. *)
Theorem C137_frequency_best : forall losses g w,
  answers losses tried_frequency g -> 0 < w ->
  exists f, frequency_scan losses w = Ok f /\ tried_frequency f /\
    forall f', tried_frequency f' -> Rabs (g f - w) <= Rabs (g f' - w).
Proof.
  intros losses g w A W. destruct (scan_grid losses g w 10000 5000 398 W) as (z & S & I & M); [lia| |].
  - intros x X. apply A. apply grid_In in X. exact X.
  - exists z. unfold frequency_scan. rewrite S. split; [reflexivity|]. split; [apply grid_In in I; exact I|].
    intros f' F. apply M. apply grid_In. exact F.
Qed.

Lemma near_by : forall g w first step n low high x0 z, 0 < step -> (0 < n)%nat ->
  low = first -> high = first + step * (INR n - 1) ->
  growing g low high -> low <= x0 <= high -> g x0 = w ->
  (exists i, (i < n)%nat /\ z = first + step * INR i) ->
  (forall y, (exists i, (i < n)%nat /\ y = first + step * INR i) -> Rabs (g z - w) <= Rabs (g y - w)) ->
  Rabs (z - x0) < step.
Proof.
  intros g w first step n low high x0 z S N -> -> G X E (i & I & ->) M.
  assert (U : INR i <= INR n - 1).
  { replace (INR n - 1) with (INR (n - 1)) by (rewrite minus_INR by lia; reflexivity). apply le_INR. lia. }
  assert (SI : 0 <= step * INR i) by (apply Rmult_le_pos; [lra|apply pos_INR]).
  assert (SN : step * INR i <= step * (INR n - 1)) by (apply Rmult_le_compat_l; lra).
  destruct (Rlt_le_dec (Rabs (first + step * INR i - x0)) step) as [L|L]; [exact L|exfalso].
  destruct (Rle_lt_dec (first + step * INR i) x0) as [B|B].
  - rewrite Rabs_left1 in L by lra.
    assert (I' : (Datatypes.S i < n)%nat).
    { destruct (Nat.eq_dec (Datatypes.S i) n) as [Q|Q]; [|lia]. exfalso. subst n. rewrite S_INR in X. 
      replace (INR i + 1 - 1) with (INR i) in X by ring. lra. }
    specialize (M (first + step * INR (Datatypes.S i)) (ex_intro _ (Datatypes.S i) (conj I' eq_refl))).
    rewrite S_INR in M. replace (first + step * (INR i + 1)) with (first + step * INR i + step) in M by ring.
    assert (L1 : g (first + step * INR i) < g (first + step * INR i + step)) by (apply G; lra).
    assert (L2 : g (first + step * INR i + step) <= w).
    { rewrite <- E. destruct (Req_dec (first + step * INR i + step) x0) as [Q|Q]; [rewrite Q; lra|].
      left. apply G; lra. }
    rewrite !Rabs_left1 in M by lra. lra.
  - rewrite Rabs_right in L by lra.
    assert (I' : exists j, i = Datatypes.S j).
    { destruct i as [|j]; [exfalso; simpl in L, B; lra|exists j; reflexivity]. }
    destruct I' as (j & ->). rewrite S_INR in *.
    assert (J : (j < n)%nat) by lia. specialize (M (first + step * INR j) (ex_intro _ j (conj J eq_refl))).
    replace (first + step * (INR j + 1)) with (first + step * INR j + step) in * by ring.
    assert (SJ : 0 <= step * INR j) by (apply Rmult_le_pos; [lra|apply pos_INR]).
    assert (HI : first + step * INR j + step <= first + step * (INR n - 1)).
    { replace (first + step * INR j + step) with (first + step * (INR j + 1)) by ring. lra. }
    assert (L1 : g (first + step * INR j) < g (first + step * INR j + step)) by (apply G; lra).
    assert (L2 : w <= g (first + step * INR j)).
    { rewrite <- E. destruct (Req_dec x0 (first + step * INR j)) as [Q|Q]; [rewrite Q; lra|].
      left. apply G; lra. }
    rewrite !Rabs_right in M by lra. lra.
Qed.

(** When the losses grow with the frequency, it is less than 5 kHz from the one
    that has the losses, *)
Theorem C137_frequency_near : forall losses g f0 w,
  answers losses tried_frequency g -> growing g 10000 1995000 -> 0 < w ->
  10000 <= f0 <= 1995000 -> g f0 = w ->
  exists f, frequency_scan losses w = Ok f /\ Rabs (f - f0) < 5000.
Proof.
  intros losses g f0 w A G W F E. destruct (C137_frequency_best losses g w A W) as (f & S & T & M).
  exists f. split; [exact S|].
  apply (near_by g w 10000 5000 398 10000 1995000 f0 f); try assumption; [lra|lia|lra|].
  rewrite INR_IZR_INZ. change (Z.of_nat 398) with 398%Z. lra.
Qed.

(** and exactly it when it is one of those tried. *)
Theorem C137_frequency_exact : forall losses g f0,
  answers losses tried_frequency g -> growing g 10000 1995000 -> 0 < g f0 -> tried_frequency f0 ->
  frequency_scan losses (g f0) = Ok f0.
Proof.
  intros losses g f0 A G W T. destruct (C137_frequency_best losses g (g f0) A W) as (f & S & TF & M).
  rewrite S. f_equal. specialize (M f0 T). rewrite Rminus_diag_eq with (r1 := g f0) in M by reflexivity.
  rewrite Rabs_R0 in M. pose proof (Rabs_pos (g f - g f0)) as P.
  assert (Z : g f - g f0 = 0).
  { destruct (Req_dec (g f - g f0) 0) as [Q|Q]; [exact Q|]. pose proof (Rabs_pos_lt _ Q). lra. }
  assert (B : forall x, tried_frequency x -> 10000 <= x <= 1995000).
  { intros x (i & I & ->). pose proof (pos_INR i). assert (INR i <= 397).
    { replace 397 with (INR 397) by (rewrite INR_IZR_INZ; reflexivity). apply le_INR. lia. } lra. }
  pose proof (B f TF). pose proof (B f0 T).
  destruct (Rtotal_order f f0) as [O|[O|O]]; [|exact O|].
  - pose proof (G f f0 ltac:(lra) O ltac:(lra)). lra.
  - pose proof (G f0 f ltac:(lra) O ltac:(lra)). lra.
Qed.

(** ** The flux density *)

Lemma descend_best : forall losses g w, 0 < w -> forall points x y,
  (forall u, In u points -> losses u = Ok (g u)) ->
  StronglySorted Rlt (y :: points) ->
  (forall u v, In u (y :: points) -> In v (y :: points) -> u < v -> g u <= g v) ->
  deviation g w x = deviation g w y ->
  exists z, descend losses w points (Some (deviation g w x, x)) (Some (deviation g w y)) = Ok (Some z) /\
    (z = x \/ In z points) /\ deviation g w z <= deviation g w x /\
    forall u, In u points -> deviation g w z <= deviation g w u.
Proof.
  intros losses g w W. induction points as [|u rest IH]; intros x y A S M E.
  - exists x. split; [reflexivity|]. split; [left; reflexivity|]. split; [lra|]. intros u [].
  - cbn [descend]. rewrite (A u) by (left; reflexivity). cbn [bind]. destruct (Req_EM_T w 0); [lra|].
    fold (deviation g w u).
    inversion S as [|? ? S' F]; subst. inversion S' as [|? ? S'' F']; subst.
    rewrite Forall_forall in F, F'.
    assert (A' : forall z, In z rest -> losses z = Ok (g z)) by (intros z Z; apply A; right; exact Z).
    assert (M' : forall p q, In p (u :: rest) -> In q (u :: rest) -> p < q -> g p <= g q)
      by (intros p q P Q L; apply M; [right; exact P|right; exact Q|exact L]).
    destruct (Rlt_dec (deviation g w y) (deviation g w u)) as [L|L].
    + destruct (Rlt_dec (deviation g w u) (deviation g w x)) as [L'|_]; [lra|].
      exists x. split; [reflexivity|]. split; [left; reflexivity|]. split; [lra|].
      assert (YU : g y <= g u) by (apply M; [left; reflexivity|right; left; reflexivity|apply F; left; reflexivity]).
      assert (GU : w < g u).
      { destruct (Rlt_le_dec w (g u)) as [Q|Q]; [exact Q|exfalso]. unfold deviation in L.
        rewrite !Rabs_left1 in L by lra. apply (Rmult_lt_compat_r w) in L; [|exact W]. unfold Rdiv in L.
        rewrite !Rmult_assoc, Rinv_l, !Rmult_1_r in L by lra. lra. }
      intros v V. assert (GV : g u <= g v).
      { destruct V as [<-|V]; [lra|]. apply M'; [left; reflexivity|right; exact V|apply F'; exact V]. }
      assert (D : deviation g w u <= deviation g w v).
      { unfold deviation. rewrite !Rabs_right by lra. apply Rmult_le_compat_r; [|lra]. left. apply Rinv_0_lt_compat. exact W. }
      lra.
    + destruct (Rlt_dec (deviation g w u) (deviation g w x)) as [L'|L'].
      * destruct (IH u u A' S' M' eq_refl) as (z & D & I & Z & MZ). exists z. split; [exact D|].
        split; [destruct I as [->|I]; [right; left; reflexivity|right; right; exact I]|]. split; [lra|].
        intros v [<-|V]; [exact Z|apply MZ; exact V].
      * assert (EQ : deviation g w x = deviation g w u) by lra.
        destruct (IH x u A' S' M' EQ) as (z & D & I & Z & MZ). exists z. split; [exact D|].
        split; [destruct I as [->|I]; [left; reflexivity|right; right; exact I]|]. split; [exact Z|].
        intros v [<-|V]; [lra|apply MZ; exact V].
Qed.

(** The peak is one of those tried, and although the search stops before the last,
    none of them is nearer when the losses grow with the flux density. *)
Theorem C137_flux_best : forall losses g w,
  answers losses tried_peak g ->
  (forall x y, tried_peak x -> tried_peak y -> x < y -> g x <= g y) -> 0 < w ->
  exists b, flux_density_scan losses w = Ok (Some b) /\ tried_peak b /\
    forall b', tried_peak b' -> Rabs (g b - w) <= Rabs (g b' - w).
Proof.
  intros losses g w A G W. unfold flux_density_scan.
  assert (T : forall x, In x (grid (5 / 1000) (5 / 1000) 199) <-> tried_peak x) by (intros x; apply grid_In).
  pose proof (grid_sorted (5 / 1000) (5 / 1000) 199 ltac:(lra)) as S.
  destruct (grid (5 / 1000) (5 / 1000) 199) as [|x rest] eqn:E; [discriminate|]. clear E.
  cbn [descend]. rewrite (A x) by (apply T; left; reflexivity). cbn [bind]. destruct (Req_EM_T w 0); [lra|].
  fold (deviation g w x).
  destruct (descend_best losses g w W rest x x) as (z & D & I & Z & M).
  - intros u U. apply A. apply T. right. exact U.
  - exact S.
  - intros u v U V L. apply G; [apply T; exact U|apply T; exact V|exact L].
  - reflexivity.
  - exists z. split; [exact D|]. split; [apply T; destruct I as [->|I]; [left; reflexivity|right; exact I]|].
    intros b B. apply deviation_le; [exact W|]. apply T in B. destruct B as [<-|B]; [exact Z|apply M; exact B].
Qed.

Lemma peak_bounds : forall x, tried_peak x -> 5 / 1000 <= x <= 995 / 1000.
Proof.
  intros x (i & I & ->). pose proof (pos_INR i). assert (INR i <= 198).
  { replace 198 with (INR 198) by (rewrite INR_IZR_INZ; reflexivity). apply le_INR. lia. } lra.
Qed.

(** It is less than 5 mT from the one that has the losses, *)
Theorem C137_flux_near : forall losses g b0 w,
  answers losses tried_peak g -> growing g (5 / 1000) (995 / 1000) -> 0 < w ->
  5 / 1000 <= b0 <= 995 / 1000 -> g b0 = w ->
  exists b, flux_density_scan losses w = Ok (Some b) /\ Rabs (b - b0) < 5 / 1000.
Proof.
  intros losses g b0 w A G W B E. destruct (C137_flux_best losses g w A) as (b & S & T & M); [|exact W|].
  - intros x y X Y L. pose proof (peak_bounds x X). pose proof (peak_bounds y Y). left. apply G; lra.
  - exists b. split; [exact S|].
    apply (near_by g w (5 / 1000) (5 / 1000) 199 (5 / 1000) (995 / 1000) b0 b); try assumption; [lra|lia|lra|].
    rewrite INR_IZR_INZ. change (Z.of_nat 199) with 199%Z. lra.
Qed.

(** and exactly it when it is one of those tried. *)
Theorem C137_flux_exact : forall losses g b0,
  answers losses tried_peak g -> growing g (5 / 1000) (995 / 1000) -> 0 < g b0 -> tried_peak b0 ->
  flux_density_scan losses (g b0) = Ok (Some b0).
Proof.
  intros losses g b0 A G W T.
  destruct (C137_flux_best losses g (g b0) A) as (b & S & TB & M); [|exact W|].
  - intros x y X Y L. pose proof (peak_bounds x X). pose proof (peak_bounds y Y). left. apply G; lra.
  - rewrite S. do 2 f_equal. specialize (M b0 T). rewrite Rminus_diag_eq with (r1 := g b0) in M by reflexivity.
    rewrite Rabs_R0 in M. pose proof (Rabs_pos (g b - g b0)) as P.
    assert (Z : g b - g b0 = 0).
    { destruct (Req_dec (g b - g b0) 0) as [Q|Q]; [exact Q|]. pose proof (Rabs_pos_lt _ Q). lra. }
    pose proof (peak_bounds b TB). pose proof (peak_bounds b0 T).
    destruct (Rtotal_order b b0) as [O|[O|O]]; [|exact O|].
    + pose proof (G b b0 ltac:(lra) O ltac:(lra)). lra.
    + pose proof (G b0 b ltac:(lra) O ltac:(lra)). lra.
Qed.

(** A model that refuses one of the first frequencies makes the search fail. *)
Theorem C137_refused : forall losses w text, losses 10000 = Throw text -> frequency_scan losses w = Throw text.
Proof.
  intros losses w text L. unfold frequency_scan. rewrite (grid_head 10000 5000 397).
  rewrite (scan_refused losses w _ _ None text); [reflexivity|]. rewrite <- L. f_equal. simpl. ring.
Qed.

(** ** Where it fails *)

(** Losses out of reach are met with the last value, and not refused. *)
Theorem C137_out_of_reach_refuted : forall losses g w,
  answers losses tried_frequency g -> growing g 10000 1995000 -> 0 < w -> g 1995000 < w ->
  frequency_scan losses w = Ok 1995000.
Proof.
  intros losses g w A G W O. destruct (C137_frequency_best losses g w A W) as (f & S & T & M). rewrite S. f_equal.
  assert (L : tried_frequency 1995000) by (exists 397%nat; split; [lia|rewrite INR_IZR_INZ; change (Z.of_nat 397) with 397%Z; lra]).
  assert (B : 10000 <= f <= 1995000).
  { destruct T as (i & I & ->). pose proof (pos_INR i). assert (INR i <= 397).
    { replace 397 with (INR 397) by (rewrite INR_IZR_INZ; reflexivity). apply le_INR. lia. } lra. }
  specialize (M _ L). destruct (Req_dec f 1995000) as [Q|Q]; [exact Q|exfalso].
  pose proof (G f 1995000 ltac:(lra) ltac:(lra) ltac:(lra)) as H. rewrite !Rabs_left1 in M by lra. lra.
Qed.

(** Without losses the frequency is -1 and there is no flux density. *)
Theorem C137_no_losses_refuted : forall losses g,
  answers losses tried_frequency g -> answers losses tried_peak g ->
  frequency_scan losses 0 = Ok (-(1)) /\ flux_density_scan losses 0 = Ok None.
Proof.
  intros losses g A B.
  assert (H1 : forall points, (forall x, In x points -> losses x = Ok (g x)) -> scan losses 0 points None = Ok None).
  { induction points as [|x r IH]; intros L; [reflexivity|]. cbn [scan]. rewrite L by (left; reflexivity). cbn [bind].
    destruct (Req_EM_T 0 0); [|contradiction]. apply IH. intros y Y. apply L. right. exact Y. }
  assert (H2 : forall points, (forall x, In x points -> losses x = Ok (g x)) -> descend losses 0 points None None = Ok None).
  { induction points as [|x r IH]; intros L; [reflexivity|]. cbn [descend]. rewrite L by (left; reflexivity). cbn [bind].
    destruct (Req_EM_T 0 0); [|contradiction]. apply IH. intros y Y. apply L. right. exact Y. }
  split.
  - unfold frequency_scan. rewrite H1; [reflexivity|]. intros x X. apply A. apply grid_In in X. exact X.
  - unfold flux_density_scan. apply H2. intros x X. apply B. apply grid_In in X. exact X.
Qed.

(** Losses that do not grow: the search of the flux density stops too early. *)
Theorem C137_not_growing_refuted : exists losses g,
  answers losses tried_peak g /\ flux_density_scan losses 10 = Ok (Some (5 / 1000)) /\
  tried_peak (15 / 1000) /\ g (15 / 1000) = 10 /\ g (5 / 1000) = 9.
Proof.
  set (g := fun x => if Req_EM_T x (5 / 1000) then 9 else if Req_EM_T x (15 / 1000) then 10 else 8).
  exists (fun x => Ok (g x)), g.
  assert (G1 : g (5 / 1000) = 9) by (unfold g; destruct (Req_EM_T _ _); [reflexivity|contradiction]).
  assert (G2 : g (10 / 1000) = 8).
  { unfold g. destruct (Req_EM_T _ _); [lra|]. destruct (Req_EM_T _ _); [lra|reflexivity]. }
  assert (G3 : g (15 / 1000) = 10).
  { unfold g. destruct (Req_EM_T _ _); [lra|]. destruct (Req_EM_T _ _); [reflexivity|contradiction]. }
  split; [intros x _; reflexivity|]. split; [|split; [exists 2%nat; split; [lia|simpl; lra]|split; assumption]].
  unfold flux_density_scan. rewrite (grid_head (5 / 1000) (5 / 1000) 198).
  change (seq 1 198) with (1%nat :: seq 2 197). cbn [map].
  rewrite (descend_two (fun x => Ok (g x)) 10 _ _ _ 9 8); [do 2 f_equal; simpl; ring|lra| | |].
  - f_equal. rewrite <- G1. f_equal. simpl. ring.
  - f_equal. rewrite <- G2. f_equal. simpl. lra.
  - rewrite (Rabs_left1 (9 - 10)), (Rabs_left1 (8 - 10)) by lra. lra.
Qed.

(** Losses proportional to the argument. *)
Example C137_witness :
  frequency_scan (fun f => Ok (f / 1000)) 25 = Ok 25000 /\
  flux_density_scan (fun b => Ok (b * 1000)) 35 = Ok (Some (35 / 1000)).
Proof.
  split.
  - replace 25 with (25000 / 1000) by field.
    apply (C137_frequency_exact (fun f => Ok (f / 1000)) (fun f => f / 1000)).
    + intros x _. reflexivity. + intros x y A B C. lra. + lra. + exists 3%nat. split; [lia|simpl; lra].
  - replace 35 with (35 / 1000 * 1000) at 1 by field.
    apply (C137_flux_exact (fun b => Ok (b * 1000)) (fun b => b * 1000)).
    + intros x _. reflexivity. + intros x y A B C. lra. + lra. + exists 6%nat. split; [lia|simpl; lra].
Qed.

Print Assumptions C137_frequency_best.
Print Assumptions C137_frequency_near.
Print Assumptions C137_flux_best.
Print Assumptions C137_flux_near.
Print Assumptions C137_flux_exact.
Print Assumptions C137_no_losses_refuted.
Print Assumptions C137_not_growing_refuted.
