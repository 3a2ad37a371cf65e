(** Lemmas about the core adviser model. *)
From Coq Require Import ZArith QArith List String Bool Arith Lia Lqa Permutation Sorted.
From Verif Require Import Base QAux UtilsNumModel UtilsNumProofs AdviserModel.
Import ListNotations.
Open Scope Q_scope.

(** ** Outcomes *)
Lemma bind_ok {A B} (m : outcome A) (f : A -> outcome B) r :
  bind m f = Ok r -> exists a, m = Ok a /\ f a = Ok r.
Proof. destruct m; cbn; intros H; try discriminate. eauto. Qed.

Ltac ok :=
  repeat match goal with
  | H : bind ?m _ = Ok _ |- _ =>
      let a := fresh "a" in let E := fresh "E" in
      apply bind_ok in H; destruct H as (a & E & H)
  | H : Ok _ = Ok _ |- _ => injection H as H; try subst
  | H : Throw _ = Ok _ |- _ => discriminate H
  | H : UB _ = Ok _ |- _ => discriminate H
  end.

(** ** Subsequences *)
Inductive subseq {A : Type} : list A -> list A -> Prop :=
| sub_nil : forall l, subseq [] l
| sub_skip : forall x l l', subseq l l' -> subseq l (x :: l')
| sub_keep : forall x l l', subseq l l' -> subseq (x :: l) (x :: l').

Lemma subseq_refl {A} (l : list A) : subseq l l.
Proof. induction l; constructor; assumption. Qed.
Lemma subseq_in {A} (l l' : list A) : subseq l l' -> forall x, In x l -> In x l'.
Proof. induction 1; intros y Hy; [destruct Hy|right; auto|destruct Hy as [->|Hy]; [left|right]; auto]. Qed.
Lemma subseq_firstn {A} (l : list A) : forall n, subseq (firstn n l) l.
Proof. induction l as [|x t IH]; intros [|n]; cbn [firstn]; constructor; apply IH. Qed.
Lemma subseq_filter {A} (f : A -> bool) (l : list A) : subseq (filter f l) l.
Proof. induction l as [|x t IH]; cbn; [constructor|]. destruct (f x); constructor; assumption. Qed.
Lemma subseq_map {A B} (f : A -> B) l l' : subseq l l' -> subseq (map f l) (map f l').
Proof. induction 1; cbn; constructor; assumption. Qed.
Lemma subseq_trans {A} (l l' l'' : list A) : subseq l l' -> subseq l' l'' -> subseq l l''.
Proof.
  intros H K. revert l H. induction K as [k|x k k' K IH|x k k' K IH]; intros l H.
  - inversion H; constructor.
  - constructor. auto.
  - inversion H; subst; [constructor|constructor; auto|apply sub_keep; auto].
Qed.
Lemma sorted_subseq {A} (R : A -> A -> Prop) l l' :
  subseq l l' -> StronglySorted R l' -> StronglySorted R l.
Proof.
  induction 1 as [l'|x l l' H IH|x l l' H IH]; intros S; [constructor| |].
  - apply StronglySorted_inv in S as [S _]. auto.
  - apply StronglySorted_inv in S as [S F]. constructor; [auto|].
    rewrite Forall_forall in *. intros y Hy. apply F. eapply subseq_in; eauto.
Qed.

(** ** Order of scores *)
Definition falling (a b : dbl) : Prop := dgt b a = false.
Definition sorted {A : Type} (l : list (A * dbl)) : Prop := StronglySorted falling (map snd l).

Definition real (a : dbl) : Prop := a <> NaN.
Lemma falling_trans a b c : real b -> falling a b -> falling b c -> falling a c.
Proof.
  unfold falling, real. destruct a, b, c; cbn; intros N H K; try reflexivity; try discriminate; try (exfalso; now apply N).
  apply Qlt_bool_false in H, K. apply Qlt_bool_false. lra.
Qed.
Lemma dgt_falling a b : dgt a b = true -> falling a b.
Proof.
  unfold falling. destruct a, b; cbn; intros H; try reflexivity; try discriminate.
  apply Qlt_bool_false. apply Qlt_bool_iff in H. lra.
Qed.

Lemma insert_perm {A} (x : A * dbl) l : Permutation (x :: l) (insert x l).
Proof.
  induction l as [|y t IH]; cbn [insert]; [reflexivity|].
  destruct (dgt _ _); [|reflexivity]. rewrite perm_swap. now constructor.
Qed.
Lemma by_score_perm {A} (l : list (A * dbl)) : Permutation l (by_score l).
Proof.
  induction l as [|x t IH]; cbn [by_score]; [constructor|].
  rewrite <- insert_perm. now constructor.
Qed.
Lemma insert_sorted {A} (x : A * dbl) l :
  Forall (fun y => real (snd y)) (x :: l) -> sorted l -> sorted (insert x l).
Proof.
  unfold sorted. intros N. induction l as [|y t IH]; cbn [insert]; intros S.
  { cbn. repeat constructor. }
  pose proof (Forall_inv N) as Nx. pose proof (Forall_inv (Forall_inv_tail N)) as Ny.
  cbn [map] in S. apply StronglySorted_inv in S as [S F].
  destruct (dgt (snd y) (snd x)) eqn:G.
  - cbn [map]. constructor.
    + apply IH; [|exact S]. constructor; [exact Nx|]. apply (Forall_inv_tail (Forall_inv_tail N)).
    + rewrite Forall_forall in *. intros z Hz.
      apply in_map_iff in Hz as (q & <- & Hq).
      apply (Permutation_in q (Permutation_sym (insert_perm x t))) in Hq.
      destruct Hq as [<-|Hq].
      * apply dgt_falling. exact G.
      * apply F. apply in_map_iff. eauto.
  - cbn [map]. constructor; [constructor; assumption|].
    constructor; [exact G|]. rewrite Forall_forall in *. intros z Hz.
    eapply falling_trans; [exact Ny|exact G|]. now apply F.
Qed.
Lemma by_score_sorted {A} (l : list (A * dbl)) :
  Forall (fun y => real (snd y)) l -> sorted (by_score l).
Proof.
  induction l as [|x t IH]; intros N; cbn [by_score]; [constructor|].
  apply insert_sorted; [|apply IH; exact (Forall_inv_tail N)].
  constructor; [exact (Forall_inv N)|].
  apply (Permutation_Forall (by_score_perm t)). exact (Forall_inv_tail N).
Qed.
Lemma sort_ok {A} (l r : list (A * dbl)) : sort l = Ok r ->
  Permutation l r /\ sorted r.
Proof.
  unfold sort. destruct (_ && _) eqn:E; [discriminate|]. intros H. ok. split; [apply by_score_perm|].
  apply andb_false_iff in E as [E|E].
  - apply Nat.leb_gt in E. destruct l as [|x [|y t]]; cbn in *; [constructor|repeat constructor|lia].
  - apply by_score_sorted. apply Forall_forall. intros y Hy N.
    assert (existsb (fun x => is_nan (snd x)) l = true); [|congruence].
    apply existsb_exists. exists y. split; [exact Hy|]. now rewrite N.
Qed.
Lemma sort_real {A} (l : list (A * dbl)) : Forall (fun y => real (snd y)) l ->
  exists r, sort l = Ok r /\ Permutation l r.
Proof.
  intros N. exists (by_score l). split; [|apply by_score_perm]. unfold sort.
  replace (existsb _ l) with false; [now rewrite andb_false_r|].
  symmetry. apply Bool.not_true_is_false. rewrite existsb_exists.
  intros (y & Hy & K). rewrite Forall_forall in N. specialize (N y Hy).
  destruct (snd y); try discriminate. now apply N.
Qed.

Lemma add_contributions_fst {A} (l : list (A * dbl)) : forall n r,
  add_contributions l n = Ok r -> map fst r = map fst l.
Proof.
  induction l as [|[a s] t IH]; intros [|x n] r H; cbn in H; ok; try reflexivity; try discriminate.
  cbn [map fst]. f_equal. eapply IH; eauto.
Qed.

Section Stages.
Variable lg : Q -> Q.
Variables M D : Type.

(** ** What each stage lets through *)
Definition pass (ev : M -> evaluation M) (write_back : bool) (m : M) : list M :=
  match ev m with Verdict _ true _ m' => [if write_back then m' else m] | _ => [] end.
Definition grow (sz : M -> sizing M) (m : M) : list M :=
  match sz m with Sized _ m' => [m'] | _ => [] end.

Lemma cull_spec ev wb (l : list (M * dbl)) : forall r,
  cull M ev wb l = Ok r ->
  map fst (fst r) = flat_map (pass ev wb) (map fst l) /\
  subseq (map snd (fst r)) (map snd l) /\
  List.length (snd r) = List.length (fst r).
Proof.
  induction l as [|[m s] t IH]; intros r H; cbn [cull] in H; ok.
  { repeat split; constructor. }
  unfold pass. cbn [map flat_map fst snd].
  destruct (ev m) as [[|] sc m'|e|e]; ok; try discriminate.
  - destruct (IH _ E) as (A & B & C). cbn [map fst snd]. rewrite A. repeat split.
    + now apply sub_keep.
    + cbn. now rewrite C.
  - destruct (IH _ H) as (A & B & C). repeat split; [exact A|now apply sub_skip|exact C].
  - destruct (IH _ H) as (A & B & C). repeat split; [exact A|now apply sub_skip|exact C].
Qed.

Lemma size_all_spec sz (l : list (M * dbl)) : forall r,
  size_all M sz l = Ok r ->
  map fst r = flat_map (grow sz) (map fst l) /\ subseq (map snd r) (map snd l).
Proof.
  induction l as [|[m s] t IH]; intros r H; cbn [size_all] in H; ok.
  { split; constructor. }
  unfold grow. cbn [map flat_map fst snd].
  destruct (sz m) as [m'| |e]; ok; try discriminate.
  - destruct (IH _ E) as (A & B). cbn [map fst snd]. rewrite A. split; [reflexivity|now apply sub_keep].
  - destruct (IH _ H) as (A & B). split; [exact A|now apply sub_skip].
Qed.

Lemma keep_valid_spec ev (l : list (M * dbl)) : forall r,
  keep_valid M ev l = Ok r ->
  map fst r = flat_map (pass ev false) (map fst l) /\ subseq (map snd r) (map snd l).
Proof.
  induction l as [|[m s] t IH]; intros r H; cbn [keep_valid] in H; ok.
  { split; constructor. }
  unfold pass. cbn [map flat_map fst snd].
  destruct (ev m) as [[|] sc m'|e|e]; ok; try discriminate.
  - destruct (IH _ E) as (A & B). cbn [map fst snd]. rewrite A. split; [reflexivity|now apply sub_keep].
  - destruct (IH _ H) as (A & B). split; [exact A|now apply sub_skip].
Qed.

(** A stage seen from the candidates: what comes out, as a bag, and in order of
    score when what went in was. *)
Definition lets (l r : list (M * dbl)) (out : list M) : Prop :=
  Permutation (map fst r) out /\ (sorted l -> sorted r).

Lemma apply_scoring_spec b w (l : list (M * dbl)) raw r :
  apply_scoring lg M b w l raw = Ok r ->
  Permutation (map fst r) (map fst l) /\ sorted r.
Proof.
  unfold apply_scoring. destruct l as [|x t]; intros H; ok.
  { split; [reflexivity|constructor]. }
  apply sort_ok in H as [P S]. split; [|exact S].
  rewrite <- (add_contributions_fst _ _ _ E0). now apply Permutation_map, Permutation_sym.
Qed.

Lemma gate_filter_spec ev wb b w (l r : list (M * dbl)) :
  gate_filter lg M ev wb b w l = Ok r -> lets l r (flat_map (pass ev wb) (map fst l)).
Proof.
  unfold gate_filter, lets. intros H. ok. destruct (cull_spec _ _ _ _ E) as (A & B & _).
  destruct (Qlt_bool 0 w).
  - apply apply_scoring_spec in H as [P S]. rewrite <- A. split; auto.
  - ok. rewrite A. split; [reflexivity|]. intros S. unfold sorted in *. eapply sorted_subseq; eauto.
Qed.
Lemma skippable_filter_spec ev b w (l r : list (M * dbl)) :
  skippable_filter lg M ev b w l = Ok r ->
  lets l r (if Qlt_bool 0 w then flat_map (pass ev true) (map fst l) else map fst l).
Proof.
  unfold skippable_filter, lets. unfold Qlt_bool. destruct (Qle_bool w 0); cbn [negb]; intros H; ok.
  - split; [reflexivity|auto].
  - destruct (cull_spec _ _ _ _ E) as (A & B & _). apply apply_scoring_spec in H as [P S].
    rewrite <- A. split; auto.
Qed.
Lemma saturation_filter_spec ev (l r : list (M * dbl)) :
  saturation_filter M ev l = Ok r -> lets l r (flat_map (pass ev true) (map fst l)).
Proof.
  unfold saturation_filter, lets. intros H. ok. destruct (cull_spec _ _ _ _ E) as (A & B & _).
  rewrite A. split; [reflexivity|]. unfold sorted. intros S. eapply sorted_subseq; eauto.
Qed.
(** Whether the losses are scored at all: the first candidate decides. *)
Definition scores_losses (cs : M -> bool) (w : Q) (ms : list M) : bool :=
  Qlt_bool 0 w && match ms with [] => false | m :: _ => negb (cs m) end.
Lemma losses_filter_spec ev cs w (l r : list (M * dbl)) :
  losses_filter lg M ev cs w l = Ok r ->
  lets l r (if scores_losses cs w (map fst l) then flat_map (pass ev true) (map fst l) else map fst l).
Proof.
  unfold losses_filter, lets, scores_losses, Qlt_bool.
  destruct (Qle_bool w 0); cbn [negb andb]; intros H; ok; [split; [reflexivity|auto]|].
  destruct l as [|[m s] t]; ok; [split; [reflexivity|auto]|].
  cbn [map fst]. destruct (cs m); ok; cbn [negb].
  - split; [reflexivity|auto].
  - destruct (cull_spec _ _ _ _ E) as (A & B & _). apply apply_scoring_spec in H as [P S].
    cbn [map fst] in A. rewrite <- A. split; auto.
Qed.
Lemma size_all_lets sz (l r : list (M * dbl)) :
  size_all M sz l = Ok r -> lets l r (flat_map (grow sz) (map fst l)).
Proof.
  intros H. apply size_all_spec in H as [A B]. split; [now rewrite A|].
  intros S. eapply sorted_subseq; eauto.
Qed.
Definition gaps (fr : bool -> M -> evaluation M) (ms : list M) : list M :=
  match flat_map (pass (fr false) false) ms with
  | [] => flat_map (pass (fr true) false) ms
  | k => k
  end.
Lemma reject_spec fr (l r : list (M * dbl)) :
  reject_winding_killing_gaps M fr l = Ok r -> lets l r (gaps fr (map fst l)).
Proof.
  unfold reject_winding_killing_gaps, lets. destruct l as [|x t] eqn:L; rewrite <- ?L; intros H; ok.
  { split; [reflexivity|auto]. }
  destruct (keep_valid_spec _ _ _ E) as [A B]. unfold gaps. rewrite <- A.
  destruct a as [|y u].
  - destruct (keep_valid_spec _ _ _ H) as [A' B']. cbn [map]. rewrite A'. split; [reflexivity|].
    intros S. eapply sorted_subseq; eauto.
  - ok. cbn [map]. split; [reflexivity|]. intros S. eapply sorted_subseq; eauto.
Qed.
Lemma turn_count_filter_spec ev w (l r : list (M * dbl)) :
  turn_count_filter M ev w l = Ok r ->
  lets l r (if Qlt_bool 0 w then flat_map (pass ev false) (map fst l) else map fst l).
Proof.
  unfold turn_count_filter, lets, Qlt_bool. destruct (Qle_bool w 0); cbn [negb]; intros H; ok.
  { split; [reflexivity|auto]. }
  destruct (cull_spec _ _ _ _ E) as (A & B & C). rewrite <- A.
  destruct (snd a) as [|x u] eqn:R; ok.
  - split; [reflexivity|]. intros S. eapply sorted_subseq; eauto.
  - apply sort_ok in H as [P S]. split; [|auto].
    rewrite <- (add_contributions_fst _ _ _ E0). now apply Permutation_map, Permutation_sym.
Qed.

Lemma cut_subseq {A} p n (l : list A) : subseq (cut p n l) l.
Proof. unfold cut. destruct (_ && _); [apply subseq_firstn|apply subseq_refl]. Qed.
Lemma cut_sorted {A} p n (l : list (A * dbl)) : sorted l -> sorted (cut p n l).
Proof. intros S. eapply sorted_subseq; [|exact S]. apply subseq_map, cut_subseq. Qed.
Lemma cut_incl {A B} p n (f : A -> B) (l : list A) : incl (map f (cut p n l)) (map f l).
Proof. intros x Hx. eapply subseq_in; [|exact Hx]. apply subseq_map, cut_subseq. Qed.

(** ** Bags and sets of candidates through [flat_map] *)
Lemma flat_map_perm {A B} (f : A -> list B) l l' :
  Permutation l l' -> Permutation (flat_map f l) (flat_map f l').
Proof. apply Permutation_flat_map. Qed.
Lemma flat_map_incl {A B} (f : A -> list B) l l' : incl l l' -> incl (flat_map f l) (flat_map f l').
Proof. intros H x. rewrite !in_flat_map. intros (y & Hy & K). eauto. Qed.
Lemma gaps_perm fr ms ms' : Permutation ms ms' -> Permutation (gaps fr ms) (gaps fr ms').
Proof.
  intros P. unfold gaps. pose proof (flat_map_perm (pass (fr false) false) _ _ P) as K.
  destruct (flat_map (pass (fr false) false) ms) as [|x l].
  - apply Permutation_nil in K. rewrite K. now apply flat_map_perm.
  - destruct (flat_map (pass (fr false) false) ms') as [|y l']; [|exact K].
    symmetry in K. apply Permutation_nil in K. discriminate.
Qed.
End Stages.

(** ** Fan-out and the final cut *)
Lemma falling_refl a : falling a a.
Proof. destruct a; cbn; try reflexivity. apply Qlt_bool_false. lra. Qed.

Lemma fan_out_fst {M} (f : M -> list M) (l : list (M * dbl)) :
  map fst (fan_out M f l) = flat_map f (map fst l).
Proof.
  unfold fan_out. induction l as [|[m s] t IH]; cbn; [reflexivity|].
  rewrite map_app, IH. f_equal. rewrite map_map. cbn. apply map_id.
Qed.
Lemma fan_out_snd_in {M} (f : M -> list M) (l : list (M * dbl)) s :
  In s (map snd (fan_out M f l)) -> In s (map snd l).
Proof.
  unfold fan_out. rewrite !in_map_iff. intros (x & <- & Hx).
  apply in_flat_map in Hx as (y & Hy & K). apply in_map_iff in K as (z & <- & _). cbn. eauto.
Qed.
Lemma fan_out_sorted {M} (f : M -> list M) (l : list (M * dbl)) : sorted l -> sorted (fan_out M f l).
Proof.
  unfold sorted. induction l as [|[m s] t IH]; intros S; [constructor|].
  cbn [map snd] in S. apply StronglySorted_inv in S as [S F]. specialize (IH S).
  unfold fan_out in *. cbn [flat_map fst snd]. rewrite map_app, map_map. cbn [snd].
  induction (f m) as [|y u IHu]; cbn [map app]; [exact IH|].
  constructor; [exact IHu|]. apply Forall_app. split.
  - apply Forall_forall. intros z Hz. apply in_map_iff in Hz as (? & <- & _). apply falling_refl.
  - rewrite Forall_forall in *. intros z Hz. apply F. now apply (fan_out_snd_in f).
Qed.

Section Cut.
Variables M D : Type.
Variable ph : physics M D.

(** A finished design and the candidate it was made of. *)
Definition finished (alternatives : bool) (m : M) (d : D) : Prop :=
  exists m1 m2, correct_windings M D ph m = Ok m1 /\
    (if alternatives then add_alternatives M D ph m1 else Ok m1) = Ok m2 /\
    post_process M D ph m2 = Some d.

Lemma post_spec unique alt (l : list (M * dbl)) : forall n used r,
  post_process_and_cut M D ph unique alt n used l = Ok r ->
  (List.length r <= n)%nat /\ subseq (map snd r) (map snd l) /\
  (forall d s, In (d, s) r -> exists m, In (m, s) l /\ finished alt m d).
Proof.
  induction l as [|[m s] t IH]; intros n used r H; cbn [post_process_and_cut] in H.
  { ok. cbn. repeat split; [lia|constructor|intros ? ? []]. }
  destruct n as [|n']; ok.
  { cbn. repeat split; [lia|constructor|intros ? ? []]. }
  destruct (_ && _).
  { destruct (IH _ _ _ H) as (A & B & C). repeat split; [exact A|now apply sub_skip|].
    intros d s' Hd. destruct (C d s' Hd) as (m' & K & K'). exists m'. split; [now right|exact K']. }
  ok. destruct (post_process M D ph a0) as [d0|] eqn:P.
  - ok. destruct (IH _ _ _ E1) as (A & B & C). repeat split.
    + cbn. lia.
    + cbn. now apply sub_keep.
    + intros d s' [Hd|Hd].
      * injection Hd as <- <-. exists m. split; [now left|]. exists a, a0. auto.
      * destruct (C d s' Hd) as (m' & K & K'). exists m'. split; [now right|exact K'].
  - destruct (IH _ _ _ H) as (A & B & C). repeat split; [exact A|now apply sub_skip|].
    intros d s' Hd. destruct (C d s' Hd) as (m' & K & K'). exists m'. split; [now right|exact K'].
Qed.

(** Without unique shapes, as long as there is room nothing is lost. *)
Definition designs (alt : bool) (m : M) : list D :=
  match bind (correct_windings M D ph m)
         (fun m1 => if alt then add_alternatives M D ph m1 else Ok m1) with
  | Ok m2 => match post_process M D ph m2 with Some d => [d] | None => [] end
  | _ => []
  end.
Lemma designs_in alt m d : In d (designs alt m) <-> finished alt m d.
Proof.
  unfold designs, finished. split.
  - destruct (correct_windings M D ph m) as [m1| | |]; cbn [bind]; try (intros []).
    destruct (if alt then _ else _) as [m2| | |] eqn:E2; try (intros []).
    destruct (post_process M D ph m2) eqn:E3; [|intros []]. intros [<-|[]]. eauto.
  - intros (m1 & m2 & -> & E2 & E3). cbn [bind]. rewrite E2, E3. now left.
Qed.
Lemma post_all alt (l : list (M * dbl)) : forall n r,
  post_process_and_cut M D ph false alt n [] l = Ok r ->
  (List.length r < n)%nat \/ (List.length l <= n)%nat ->
  map fst r = flat_map (designs alt) (map fst l).
Proof.
  induction l as [|[m s] t IH]; intros n r H L; cbn [post_process_and_cut] in H.
  { ok. reflexivity. }
  destruct n as [|n']; ok; [cbn in L; lia|]. cbn [andb] in H. ok.
  cbn [map flat_map fst]. unfold designs at 1. rewrite E. cbn [bind]. rewrite E0.
  destruct (post_process M D ph a0) as [d0|] eqn:P; ok.
  - cbn [app map fst]. f_equal. apply (IH _ _ E1). cbn in L. lia.
  - cbn [app]. apply (IH _ _ H). cbn in L. lia.
Qed.

(** Unique shapes. *)
Lemma post_unique alt (l : list (M * dbl)) : forall n used r,
  post_process_and_cut M D ph true alt n used l = Ok r ->
  exists ms, Forall2 (fun m x => finished alt m (fst x) /\ In (m, snd x) l) ms r /\
    NoDup (map (shape_name M D ph) ms) /\
    (forall m, In m ms -> ~ In (shape_name M D ph m) used).
Proof.
  induction l as [|[m s] t IH]; intros n used r H; cbn [post_process_and_cut] in H.
  { ok. exists []. repeat split; constructor || intros ? []. }
  destruct n as [|n']; ok.
  { exists []. repeat split; constructor || intros ? []. }
  assert (W : forall n used r, post_process_and_cut M D ph true alt n used t = Ok r ->
    exists ms, Forall2 (fun m' x => finished alt m' (fst x) /\ In (m', snd x) ((m, s) :: t)) ms r /\
    NoDup (map (shape_name M D ph) ms) /\
    (forall m, In m ms -> ~ In (shape_name M D ph m) used)).
  { intros k u q Hq. destruct (IH _ _ _ Hq) as (ms & A & B & C). exists ms. repeat split; auto.
    clear -A. induction A as [|x y l l' [P Q] A IHA]; constructor; auto. split; [exact P|now right]. }
  cbn [andb] in H. destruct (existsb _ used) eqn:X.
  { eapply W; eauto. }
  ok. destruct (post_process M D ph a0) as [d0|] eqn:P; [|eapply W; eauto].
  ok. destruct (W _ _ _ E1) as (ms & A & B & C). exists (m :: ms). repeat split.
  - constructor; [|exact A]. cbn. split; [exists a, a0; auto|now left].
  - cbn [map]. constructor; [|exact B]. intros K. apply in_map_iff in K as (m' & K & Hm').
    apply (C m' Hm'). left. auto.
  - intros m' [<-|Hm'] K.
    + assert (existsb (String.eqb (shape_name M D ph m)) used = true); [|congruence].
      apply existsb_exists. eexists. split; [exact K|]. apply String.eqb_refl.
    + apply (C m' Hm'). now right.
Qed.
End Cut.

Section Pipelines.
Variable lg : Q -> Q.
Variables M D : Type.
Variable ph : physics M D.

(** ** The power pipeline over the available cores *)
Definition flow_saturation (mg : Q) (ms : list M) : list M :=
  flat_map (pass M (saturation M D ph mg) true)
    (flat_map (grow M (size_turns M D ph mg))
      (flat_map (pass M (energy_stored M D ph mg) true)
        (flat_map (pass M (area_product M D ph mg) false) ms))).
Definition flow_gates (ms : list M) : list M :=
  flat_map (pass M (dimensions M D ph) false)
    (flat_map (pass M (cost M D ph) false) (gaps M (post_gap_fringing M D ph) ms)).
(** [b]: the losses are scored; [t]: the temperature is. *)
Definition flow_end (b t : bool) (ms : list M) : list M :=
  let ms := if b then flat_map (pass M (losses M D ph) true) ms else ms in
  if t then flat_map (pass M (temperature M D ph) true) ms else ms.

Lemma flow_saturation_incl mg ms ms' : incl ms ms' -> incl (flow_saturation mg ms) (flow_saturation mg ms').
Proof. intros H. unfold flow_saturation. now repeat apply flat_map_incl. Qed.
Lemma flow_saturation_perm mg ms ms' : Permutation ms ms' ->
  Permutation (flow_saturation mg ms) (flow_saturation mg ms').
Proof. intros H. unfold flow_saturation. now repeat apply flat_map_perm. Qed.
Lemma flow_gates_perm ms ms' : Permutation ms ms' -> Permutation (flow_gates ms) (flow_gates ms').
Proof. intros H. unfold flow_gates. repeat apply flat_map_perm. now apply gaps_perm. Qed.
Lemma flow_end_perm b t ms ms' : Permutation ms ms' -> Permutation (flow_end b t ms) (flow_end b t ms').
Proof. intros H. unfold flow_end. destruct b, t; repeat apply flat_map_perm; assumption. Qed.
Lemma flow_end_incl b t ms ms' : incl ms ms' -> incl (flow_end b t ms) (flow_end b t ms').
Proof. intros H. unfold flow_end. destruct b, t; repeat apply flat_map_incl; assumption. Qed.
Lemma perm_incl {A} (l l' : list A) : Permutation l l' -> incl l l'.
Proof. intros P x. apply Permutation_in. exact P. Qed.

Lemma up_to_saturation_spec mg limit (l r : list (M * dbl)) :
  up_to_saturation lg M D ph mg limit l = Ok r ->
  incl (map fst r) (flow_saturation mg (map fst l)) /\
  (limit = None -> Permutation (map fst r) (flow_saturation mg (map fst l))) /\
  (sorted l -> sorted r).
Proof.
  unfold up_to_saturation. intros H. ok.
  apply gate_filter_spec in E as [P1 S1]. apply gate_filter_spec in E0 as [P2 S2].
  apply size_all_lets in E1 as [P3 S3]. apply saturation_filter_spec in H as [P4 S4].
  set (c := match limit with Some k => cut true k a | None => a end) in *.
  assert (Ic : incl (map fst c) (map fst a)).
  { unfold c. destruct limit; [apply cut_incl|apply incl_refl]. }
  repeat split.
  - unfold flow_saturation. intros x Hx. revert x Hx.
    eapply incl_tran; [apply perm_incl; exact P4|]. apply flat_map_incl.
    eapply incl_tran; [apply perm_incl; exact P3|]. apply flat_map_incl.
    eapply incl_tran; [apply perm_incl; exact P2|]. apply flat_map_incl.
    eapply incl_tran; [exact Ic|]. apply perm_incl. exact P1.
  - intros ->. cbn in c. unfold flow_saturation. rewrite P4. apply flat_map_perm. rewrite P3.
    apply flat_map_perm. rewrite P2. apply flat_map_perm. exact P1.
  - intros S. apply S4, S3, S2. unfold c. destruct limit; [apply cut_sorted|]; auto.
Qed.

Lemma from_saturation_spec o w limit (l r : list (M * dbl)) :
  from_saturation lg M D ph o w limit l = Ok r ->
  (exists b, (b = true -> 0 < weight_or_zero w EFFICIENCY) /\
    (b = false -> weight_or_zero w EFFICIENCY <= 0 \/ exists m, cannot_score_losses M D ph m = true) /\
    incl (map fst r) (flow_end b (temperature_filter o && Qlt_bool 0 (weight_or_zero w EFFICIENCY))
                       (flow_gates (map fst l)))) /\
  (forall c, limit = None -> (forall m, cannot_score_losses M D ph m = c) ->
    Permutation (map fst r)
      (flow_end (Qlt_bool 0 (weight_or_zero w EFFICIENCY) && negb c)
                (temperature_filter o && Qlt_bool 0 (weight_or_zero w EFFICIENCY))
                (flow_gates (map fst l)))) /\
  (sorted l -> sorted r).
Proof.
  unfold from_saturation. set (we := weight_or_zero w EFFICIENCY). intros H. ok.
  apply reject_spec in E as [P1 S1]. apply gate_filter_spec in E0 as [P2 S2].
  apply gate_filter_spec in E1 as [P3 S3].
  set (c := match limit with Some k => cut true k a1 | None => a1 end) in *.
  apply losses_filter_spec in E2 as [P4 S4].
  assert (Ic : incl (map fst c) (map fst a1)).
  { unfold c. destruct limit; [apply cut_incl|apply incl_refl]. }
  assert (Sc : sorted a1 -> sorted c).
  { unfold c. destruct limit; [apply cut_sorted|auto]. }
  assert (Pg : Permutation (map fst a1) (flow_gates (map fst l))).
  { unfold flow_gates. rewrite P3. apply flat_map_perm. rewrite P2. apply flat_map_perm. exact P1. }
  assert (T : Permutation (map fst r) (if temperature_filter o && Qlt_bool 0 we
      then flat_map (pass M (temperature M D ph) true) (map fst a2) else map fst a2)
     /\ (sorted a2 -> sorted r)).
  { destruct (temperature_filter o); cbn [andb].
    - now apply skippable_filter_spec in H.
    - ok. split; [reflexivity|auto]. }
  destruct T as [P5 S5]. repeat split.
  - set (bs := scores_losses M (cannot_score_losses M D ph) we (map fst c)) in *.
    assert (B0 : bs = false -> map fst c = [] \/ we <= 0 \/ exists m, cannot_score_losses M D ph m = true).
    { unfold bs, scores_losses. intros B. apply andb_false_iff in B as [B|B].
      - apply Qlt_bool_false in B. auto.
      - destruct (map fst c) as [|m0 t0]; [auto|]. apply negb_false_iff in B. eauto. }
    assert (B1 : bs = true -> 0 < we).
    { unfold bs, scores_losses. intros B. apply andb_true_iff in B as [B _]. now apply Qlt_bool_iff. }
    assert (I : forall b, map fst c = [] \/ b = bs -> incl (map fst r)
      (flow_end b (temperature_filter o && Qlt_bool 0 we) (flow_gates (map fst l)))).
    { intros b HB. unfold flow_end. eapply incl_tran; [apply perm_incl; exact P5|].
      assert (I2 : incl (map fst a2) (if b
         then flat_map (pass M (losses M D ph) true) (flow_gates (map fst l)) else flow_gates (map fst l))).
      { destruct HB as [C0| ->].
        - rewrite C0 in P4. replace (map fst a2) with (@nil M); [intros ? []|].
          symmetry. apply Permutation_nil. rewrite P4. now destruct bs.
        - eapply incl_tran; [apply perm_incl; exact P4|].
          destruct bs; [apply flat_map_incl|];
            (eapply incl_tran; [exact Ic|]; apply perm_incl; exact Pg). }
      destruct (temperature_filter o && _); [apply flat_map_incl|]; exact I2. }
    destruct bs eqn:B; [exists true; repeat split; auto; discriminate|].
    destruct (B0 eq_refl) as [C0|C0].
    { destruct (Qlt_bool 0 we) eqn:Q0.
      - exists true. repeat split; [intros _; now apply Qlt_bool_iff|discriminate|]. apply I. now left.
      - exists false. repeat split; [discriminate|intros _; left; now apply Qlt_bool_false|]. apply I. now left. }
    exists false. repeat split; [discriminate|auto|]. apply I. now right.
  - intros k -> K. cbn in c. unfold flow_end. rewrite P5.
    assert (I2 : Permutation (map fst a2) (if Qlt_bool 0 we && negb k
       then flat_map (pass M (losses M D ph) true) (flow_gates (map fst l)) else flow_gates (map fst l))).
    { rewrite P4. unfold scores_losses. subst c. destruct (Qlt_bool 0 we); cbn [andb]; [|exact Pg].
      destruct (map fst a1) as [|m t] eqn:A.
      - apply Permutation_nil in Pg. rewrite Pg. cbn. now destruct (negb k).
      - rewrite (K m). destruct (negb k); [apply flat_map_perm|]; exact Pg. }
    destruct (temperature_filter o && _); [apply flat_map_perm|]; exact I2.
  - intros S. apply S5, S4, Sc, S3, S2, S1, S.
Qed.

(** The candidates that reach the final cut without pruning. *)
Definition flow_power (mg : Q) (b t : bool) (ms : list M) : list M :=
  match flow_saturation mg ms with
  | [] => if Qlt_bool 1 mg
          then map (tag_relaxed M D ph) (flow_end b t (flow_gates (flow_saturation 1 ms))) else []
  | k => flow_end b t (flow_gates k)
  end.
Lemma flow_power_perm mg b t ms ms' : Permutation ms ms' ->
  Permutation (flow_power mg b t ms) (flow_power mg b t ms').
Proof.
  intros P. unfold flow_power. pose proof (flow_saturation_perm mg _ _ P) as K.
  destruct (flow_saturation mg ms) as [|x l].
  - apply Permutation_nil in K. rewrite K. destruct (Qlt_bool 1 mg); [|reflexivity].
    now apply Permutation_map, flow_end_perm, flow_gates_perm, flow_saturation_perm.
  - destruct (flow_saturation mg ms') as [|y l'].
    + symmetry in K. apply Permutation_nil in K. discriminate.
    + now apply flow_end_perm, flow_gates_perm.
Qed.
Lemma flow_gates_nil : flow_gates [] = [].
Proof. reflexivity. Qed.
Lemma flow_end_nil b t : flow_end b t [] = [].
Proof. now destruct b, t. Qed.

Lemma tag_sorted (l : list (M * dbl)) : sorted l ->
  sorted (map (fun x => (tag_relaxed M D ph (fst x), snd x)) l).
Proof. unfold sorted. now rewrite map_map. Qed.
Lemma tag_fst (l : list (M * dbl)) :
  map fst (map (fun x => (tag_relaxed M D ph (fst x), snd x)) l) = map (tag_relaxed M D ph) (map fst l).
Proof. rewrite !map_map. reflexivity. Qed.

Lemma power_survivors_sorted o w after n (l r : list (M * dbl)) :
  power_survivors lg M D ph o w after n l = Ok r -> sorted l -> sorted r.
Proof.
  unfold power_survivors. intros H S. ok.
  apply up_to_saturation_spec in E as (_ & _ & S1). apply from_saturation_spec in E0 as (_ & _ & S2).
  destruct a0 as [|y u]; ok; [|auto].
  apply up_to_saturation_spec in E as (_ & _ & S3).
  assert (S4 : sorted (fst a1)).
  { destruct a0; [destruct (Qlt_bool 1 (margin o))|]; ok; cbn [fst]; auto.
    match goal with K : up_to_saturation _ _ _ _ 1 None l = Ok _ |- _ =>
      apply up_to_saturation_spec in K as (_ & _ & S4) end. auto. }
  apply from_saturation_spec in E1 as (_ & _ & S5).
  destruct (snd a1); [apply tag_sorted|]; auto.
Qed.

Lemma power_survivors_flow o w after n (l r : list (M * dbl)) c :
  pruning o = false -> (forall m, cannot_score_losses M D ph m = c) ->
  power_survivors lg M D ph o w after n l = Ok r ->
  Permutation (map fst r)
    (flow_power (margin o) (Qlt_bool 0 (weight_or_zero w EFFICIENCY) && negb c)
       (temperature_filter o && Qlt_bool 0 (weight_or_zero w EFFICIENCY)) (map fst l)).
Proof.
  unfold power_survivors. intros -> C H. ok. unfold flow_power.
  apply up_to_saturation_spec in E as (_ & P1 & _). specialize (P1 eq_refl).
  apply from_saturation_spec in E0 as (_ & P2 & _). specialize (P2 _ eq_refl C).
  set (b := _ && negb c) in *. set (t := temperature_filter o && _) in *.
  assert (P3 : Permutation (map fst a0) (flow_end b t (flow_gates (flow_saturation (margin o) (map fst l))))).
  { rewrite P2. now apply flow_end_perm, flow_gates_perm. }
  destruct a0 as [|y u].
  - cbn [map] in P3. apply Permutation_nil in P3. ok.
    apply up_to_saturation_spec in E as (_ & P4 & _). specialize (P4 eq_refl).
    apply from_saturation_spec in E1 as (_ & P5 & _). specialize (P5 _ eq_refl C). fold b t in P5.
    destruct (flow_saturation (margin o) (map fst l)) as [|z v] eqn:F.
    + symmetry in P4. apply Permutation_nil in P4. apply map_eq_nil in P4. subst a0.
      destruct (Qlt_bool 1 (margin o)); ok; cbn [fst snd] in *.
      * apply up_to_saturation_spec in E as (_ & P6 & _). specialize (P6 eq_refl).
        destruct a0 as [|q1 q2].
        -- cbn [map] in P6, P5. apply Permutation_nil in P6. rewrite P6, flow_gates_nil, flow_end_nil.
           rewrite flow_gates_nil, flow_end_nil in P5. exact P5.
        -- rewrite tag_fst. apply Permutation_map. rewrite P5.
           now apply flow_end_perm, flow_gates_perm.
      * rewrite P5. cbn [map]. now rewrite flow_gates_nil, flow_end_nil.
    + destruct a0 as [|q1 q2]; [cbn in P4; apply Permutation_nil in P4; discriminate|]. ok. cbn [fst snd] in *.
      rewrite P5. now apply flow_end_perm, flow_gates_perm.
  - ok. destruct (flow_saturation (margin o) (map fst l)) as [|z v] eqn:F.
    + rewrite flow_gates_nil, flow_end_nil in P3. symmetry in P3. apply Permutation_nil in P3. discriminate.
    + exact P3.
Qed.

(** With or without pruning: where each survivor comes from. *)
Lemma power_survivors_incl o w after n (l r : list (M * dbl)) :
  power_survivors lg M D ph o w after n l = Ok r ->
  exists b ms, (b = true -> 0 < weight_or_zero w EFFICIENCY) /\
    (b = false -> weight_or_zero w EFFICIENCY <= 0 \/ exists m, cannot_score_losses M D ph m = true) /\
    let t := temperature_filter o && Qlt_bool 0 (weight_or_zero w EFFICIENCY) in
    (incl ms (flow_saturation (margin o) (map fst l)) /\
     incl (map fst r) (flow_end b t (flow_gates ms))) \/
    (1 < margin o /\ flow_saturation (margin o) (map fst l) = [] /\
     incl ms (flow_saturation 1 (map fst l)) /\
     incl (map fst r) (map (tag_relaxed M D ph) (flow_end b t (flow_gates ms)))).
Proof.
  unfold power_survivors. intros H. ok.
  apply up_to_saturation_spec in E as (I1 & _ & _).
  apply from_saturation_spec in E0 as ((b & B1 & B2 & I2) & _ & _).
  destruct a0 as [|y u]; ok.
  2:{ exists b, (map fst a). repeat split; auto. }
  apply up_to_saturation_spec in E as (I3 & P3 & _). specialize (P3 eq_refl).
  apply from_saturation_spec in E1 as ((b' & B1' & B2' & I5) & _ & _).
  destruct a0 as [|q1 q2].
  2:{ ok. cbn [fst snd] in *. exists b', (map fst (q1 :: q2)). repeat split; auto. }
  cbn [map] in P3. apply Permutation_nil in P3.
  destruct (Qlt_bool 1 (margin o)) eqn:M1; ok; cbn [fst snd] in *.
  2:{ exists b', []. repeat split; auto. }
  apply up_to_saturation_spec in E as (I6 & _ & _).
  exists b', (map fst a0). repeat split; auto.
  destruct a0 as [|q1 q2].
  - left. split; [intros ? []|exact I5].
  - right. repeat split; auto. { now apply Qlt_bool_iff. }
    rewrite tag_fst. now apply incl_map.
Qed.

Lemma pass_length ev wb ms : (List.length (flat_map (pass M ev wb) ms) <= List.length ms)%nat.
Proof.
  induction ms as [|m t IH]; cbn [flat_map List.length]; [lia|]. rewrite app_length.
  unfold pass at 1. destruct (ev m) as [[|] ? ?| |]; cbn [List.length]; lia.
Qed.
Lemma grow_length sz ms : (List.length (flat_map (grow M sz) ms) <= List.length ms)%nat.
Proof.
  induction ms as [|m t IH]; cbn [flat_map List.length]; [lia|]. rewrite app_length.
  unfold grow at 1. destruct (sz m); cbn [List.length]; lia.
Qed.
Lemma flow_saturation_length mg ms : (List.length (flow_saturation mg ms) <= List.length ms)%nat.
Proof.
  unfold flow_saturation. eapply Nat.le_trans; [apply pass_length|].
  eapply Nat.le_trans; [apply grow_length|]. eapply Nat.le_trans; [apply pass_length|]. apply pass_length.
Qed.
Lemma flow_gates_length ms : (List.length (flow_gates ms) <= List.length ms)%nat.
Proof.
  unfold flow_gates, gaps. eapply Nat.le_trans; [apply pass_length|].
  eapply Nat.le_trans; [apply pass_length|].
  pose proof (pass_length (post_gap_fringing M D ph false) false ms) as A.
  pose proof (pass_length (post_gap_fringing M D ph true) false ms) as B.
  destruct (flat_map _ ms); assumption.
Qed.
Lemma flow_end_length b t ms : (List.length (flow_end b t ms) <= List.length ms)%nat.
Proof.
  unfold flow_end.
  pose proof (pass_length (losses M D ph) true ms) as A.
  destruct b, t; try lia; eapply Nat.le_trans; try apply pass_length; lia.
Qed.
Lemma flow_power_length mg b t ms : (List.length (flow_power mg b t ms) <= List.length ms)%nat.
Proof.
  unfold flow_power. pose proof (flow_saturation_length mg ms) as A.
  pose proof (flow_saturation_length 1 ms) as A1.
  destruct (flow_saturation mg ms) as [|x l] eqn:E.
  - destruct (Qlt_bool 1 mg); [|cbn; lia]. rewrite map_length.
    pose proof (flow_end_length b t (flow_gates (flow_saturation 1 ms))).
    pose proof (flow_gates_length (flow_saturation 1 ms)). lia.
  - pose proof (flow_end_length b t (flow_gates (x :: l))). pose proof (flow_gates_length (x :: l)). lia.
Qed.

(** ** The other pipelines: order *)
Lemma losses_or_all_sorted w (l r : list (M * dbl)) :
  losses_or_all lg M D ph w l = Ok r -> sorted l -> sorted r.
Proof.
  unfold losses_or_all. intros H S. ok. apply losses_filter_spec in E as [_ K]. destruct a; auto.
Qed.
Lemma filter_sorted {A} f (l : list (A * dbl)) : sorted l -> sorted (filter f l).
Proof. intros S. eapply sorted_subseq; [|exact S]. apply subseq_map, subseq_filter. Qed.
Lemma suppression_survivors_sorted o w n (l r : list (M * dbl)) :
  suppression_survivors lg M D ph o w n l = Ok r -> sorted l -> sorted r.
Proof.
  unfold suppression_survivors. intros H S. ok.
  apply losses_or_all_sorted in H; [exact H|].
  apply gate_filter_spec in E4 as [_ K]. apply K.
  apply gate_filter_spec in E3 as [_ K3]. apply K3.
  apply gate_filter_spec in E2 as [_ K2]. apply K2.
  apply saturation_filter_spec in E1 as [_ K1]. apply K1. apply cut_sorted.
  apply turn_count_filter_spec in E0 as [_ K0]. apply K0.
  apply skippable_filter_spec in E as [_ K']. apply K'.
  destruct (differential_choke M D ph); [now apply filter_sorted|exact S].
Qed.
End Pipelines.
