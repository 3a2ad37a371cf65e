(** * Saturation and rated currents: C176 to C178 *)
From Coq Require Import ZArith QArith Qround Qabs Qminmax List String Bool Lia Lra Lqa Sorted Permutation.
From Verif Require Import Base QAux RatingModel.
Import ListNotations.
Local Open Scope Q_scope.
Local Open Scope outcome_scope.

(** ** C176: a figure of the material at a temperature *)

(** No two data at the same temperature. *)
Definition distinct (l : list datum) : Prop :=
  ForallOrdPairs (fun a b => ~ fst a == fst b) l.

Definition below (a b : datum) : Prop := fst a < fst b.

Lemma insert_perm : forall d l, Permutation (d :: l) (insert d l).
Proof.
  intros d l. induction l as [|e l IH]; cbn; [reflexivity|].
  destruct (Qlt_bool (fst e) (fst d)); [|reflexivity].
  rewrite perm_swap. now rewrite IH.
Qed.
Lemma sorting_perm : forall l, Permutation l (sorting l).
Proof.
  induction l as [|d l IH]; cbn; [constructor|].
  rewrite IH at 1. apply insert_perm.
Qed.

Lemma distinct_cons : forall d l, distinct (d :: l) <-> (Forall (fun e => ~ fst d == fst e) l /\ distinct l).
Proof.
  intros d l. split.
  - intros H. inversion H; subst. now split.
  - intros [A B]. now constructor.
Qed.
Lemma distinct_perm : forall l l', Permutation l l' -> distinct l -> distinct l'.
Proof.
  intros l l' P. induction P; intros D; auto.
  - apply distinct_cons in D. destruct D as [A B]. apply distinct_cons. split; [|auto].
    rewrite <- P. exact A.
  - apply distinct_cons in D. destruct D as [A B]. apply distinct_cons in B. destruct B as [B C].
    inversion A; subst. apply distinct_cons. split.
    + constructor; [|exact B]. intros E. apply H1. now symmetry.
    + apply distinct_cons. now split.
Qed.

Lemma insert_sorted : forall d l, Forall (fun e => ~ fst d == fst e) l -> StronglySorted below l ->
  StronglySorted below (insert d l).
Proof.
  intros d l. induction l as [|e l IH]; intros N S; cbn.
  - constructor; constructor.
  - inversion N; subst. inversion S; subst.
    destruct (Qlt_bool (fst e) (fst d)) eqn:E; qb.
    + constructor; [auto|].
      apply Forall_forall. intros x Hx.
      apply (Permutation_in x (Permutation_sym (insert_perm d l))) in Hx.
      destruct Hx as [<- | Hx]; [exact E|]. rewrite Forall_forall in H4. auto.
    + assert (L : fst d < fst e) by (destruct (Qlt_le_dec (fst d) (fst e)); [assumption|exfalso; apply H1; lra]).
      constructor; [constructor; assumption|]. constructor; [exact L|].
      eapply Forall_impl; [|exact H4]. intros x Hx. unfold below in *. lra.
Qed.
Lemma sorting_sorted : forall l, distinct l -> StronglySorted below (sorting l).
Proof.
  induction l as [|d l IH]; intros D; cbn; [constructor|].
  apply distinct_cons in D. destruct D as [A B]. apply insert_sorted; [|auto].
  rewrite <- (sorting_perm l). exact A.
Qed.

Lemma sorted_unique : forall l l', Permutation l l' ->
  StronglySorted below l -> StronglySorted below l' -> l = l'.
Proof.
  induction l as [|d l IH]; intros l' P S S'.
  - apply Permutation_nil in P. now subst.
  - destruct l' as [|d' l']; [apply Permutation_sym, Permutation_nil in P; discriminate|].
    inversion S; subst. inversion S'; subst.
    assert (E : d = d').
    { assert (I1 : In d (d' :: l')) by (apply (Permutation_in d P); now left).
      assert (I2 : In d' (d :: l)) by (apply (Permutation_in d' (Permutation_sym P)); now left).
      destruct I1 as [E | I1]; [auto|]. destruct I2 as [E | I2]; [auto|]. exfalso.
      rewrite Forall_forall in *. specialize (H2 _ I2). specialize (H4 _ I1). unfold below in *. lra. }
    subst d'. f_equal. apply IH; auto. eapply Permutation_cons_inv; eauto.
Qed.

(** The figure does not depend on the order in which the data are listed. *)
Theorem C176_order : forall spline data data' temperature,
  Permutation data data' -> distinct data ->
  interp spline data temperature = interp spline data' temperature.
Proof.
  intros spline data data' temperature P D.
  assert (S : sorting data = sorting data').
  { apply sorted_unique.
    - now rewrite <- (sorting_perm data), <- (sorting_perm data').
    - now apply sorting_sorted.
    - apply sorting_sorted. now apply (distinct_perm data). }
  pose proof (Permutation_length P) as L.
  destruct data as [|a [|b [|c data]]]; destruct data' as [|a' [|b' [|c' data']]]; try discriminate L.
  - reflexivity.
  - apply Permutation_length_1 in P. now subst.
  - unfold interp. now rewrite S.
  - unfold interp. now rewrite S.
Qed.

(** Example data: one hundred degrees hotter, one fifth less. *)
Definition two : list datum := [(100, 4 # 10); (25, 5 # 10)].
Example C176_order_witness : Permutation two (rev two) /\ distinct two /\
  interp (fun _ _ => 0) two 25 <> interp (fun _ _ => 0) two 100.
Proof.
  split; [apply Permutation_rev|]. split; [repeat constructor; cbn; lra|].
  vm_compute. discriminate.
Qed.

(** With two data of different temperatures the figure goes along the straight
    line through them, whichever is listed first. *)
Theorem C176_line : forall spline a b temperature, ~ fst a == fst b ->
  exists y, interp spline [a; b] temperature = Ok (Some y) /\
    (y - snd a) * (fst b - fst a) == (snd b - snd a) * (temperature - fst a).
Proof.
  intros spline a b temperature N. unfold interp. cbn [sorting insert].
  destruct (Qlt_bool (fst b) (fst a)) eqn:E; qb.
  - unfold over. destruct (Qeq_bool (fst b - fst a) 0) eqn:Z; qb; [exfalso; apply N; lra|].
    eexists. split; [reflexivity|]. cbn. field. exact Z.
  - unfold over. destruct (Qeq_bool (fst a - fst b) 0) eqn:Z; qb; [exfalso; apply N; lra|].
    eexists. split; [reflexivity|]. cbn. field. exact Z.
Qed.

(** Of two data at one temperature and one at a hotter one, the first of the two is
    kept and the figure goes along the straight line through it and the third. *)
Theorem C176_line_repeated : forall spline a b c temperature, fst a == fst b -> fst b < fst c ->
  exists y, interp spline [a; b; c] temperature = Ok (Some y) /\
    (y - snd a) * (fst c - fst a) == (snd c - snd a) * (temperature - fst a).
Proof.
  intros spline a b c temperature E L. unfold interp. cbn [sorting insert].
  destruct (Qlt_bool (fst c) (fst b)) eqn:E1; qb; [exfalso; lra|]. cbn [insert].
  destruct (Qlt_bool (fst b) (fst a)) eqn:E2; qb; [exfalso; lra|]. cbn [dedup].
  destruct (Qeq_bool (fst b) (fst a)) eqn:E3; qb; [|exfalso; apply E3; lra].
  destruct (Qeq_bool (fst c) (fst a)) eqn:E4; qb; [exfalso; lra|].
  unfold over. destruct (Qeq_bool (fst c - fst a) 0) eqn:Z; qb; [exfalso; lra|].
  eexists. split; [reflexivity|]. cbn. field. exact Z.
Qed.
(** Without data there is no figure. *)
Theorem C176_none : forall spline temperature proportion turns area inductance,
  (exists w, interp spline [] temperature = Throw w) /\
  (exists w, saturation_current spline [] temperature proportion turns area inductance = Throw w).
Proof. intros. split; eexists; reflexivity. Qed.

(** A datum given once is used at every temperature; so are data that repeat one
    temperature three times or more, of which the first is taken. *)
Theorem C176_constant : forall spline t y temperature,
  interp spline [(t, y)] temperature = Ok (Some y).
Proof. reflexivity. Qed.

Lemma dedup_none : forall (d : datum) l, Forall (fun e : datum => fst e == fst d) l -> dedup (Some (fst d)) l = [].
Proof.
  intros d l F. induction F as [|e l E F IH]; cbn; [reflexivity|].
  apply Qeq_bool_iff in E. now rewrite E.
Qed.
Lemma insert_same : forall t d l, fst d == t -> Forall (fun e : datum => fst e == t) l -> insert d l = d :: l.
Proof.
  intros t d l E F. destruct F as [|e l Ee F]; cbn; [reflexivity|].
  destruct (Qlt_bool (fst e) (fst d)) eqn:L; qb; [exfalso; lra|reflexivity].
Qed.
Lemma sorting_same : forall t l, Forall (fun e : datum => fst e == t) l -> sorting l = l.
Proof.
  intros t l F. induction F as [|d l E F IH]; cbn; [reflexivity|].
  rewrite IH. now apply (insert_same t).
Qed.
Theorem C176_repeated : forall spline t a b c rest temperature,
  Forall (fun e : datum => fst e == t) (a :: b :: c :: rest) ->
  interp spline (a :: b :: c :: rest) temperature = Ok (Some (snd a)).
Proof.
  intros spline t a b c rest temperature F. unfold interp.
  rewrite (sorting_same t _ F). inversion F; subst.
  assert (E : dedup None (a :: b :: c :: rest) = a :: dedup (Some (fst a)) (b :: c :: rest)) by reflexivity.
  rewrite E, dedup_none; [reflexivity|].
  eapply Forall_impl; [|exact H2]. intros e He. cbn in He. rewrite He. now symmetry.
Qed.

(** Full claim: data of finite values give a finite figure. False: two data of the
    same temperature are divided by their difference. *)
Theorem C176_finite_refuted : forall spline t y y' temperature,
  interp spline [(t, y); (t, y')] temperature = Ok None.
Proof.
  intros. unfold interp. cbn [sorting insert fst snd].
  assert (L : Qlt_bool t t = false) by (apply Qlt_bool_false; lra). rewrite L.
  unfold over. cbn [fst snd].
  assert (Z : Qeq_bool (t - t) 0 = true) by (apply Qeq_bool_iff; lra).
  now rewrite Z.
Qed.

(** A material without data is refused, never given a default. *)
Theorem C176_missing : forall spline data temperature proportion,
  saturation spline data temperature proportion = Throw "MaterialDataMissing" <-> data = [].
Proof.
  intros. split; [|intros ->; reflexivity].
  destruct data as [|a [|b [|c data]]]; [reflexivity|discriminate| |].
  - unfold saturation, interp. cbn [sorting insert].
    destruct (Qlt_bool (fst b) (fst a)); unfold over; cbn; destruct (Qeq_bool _ _); discriminate.
  - unfold saturation, interp, bind.
    destruct (dedup None (sorting (a :: b :: c :: data))) as [|? [|? [|? ?]]]; discriminate.
Qed.

(** The saturation used by the designs is seven tenths of the published one. *)
Theorem C176_proportion : forall spline data temperature raw,
  saturation spline data temperature false = Ok (Some raw) <->
  exists used, saturation spline data temperature true = Ok (Some used) /\ used = usable * raw /\
    saturation spline data temperature false = Ok (Some raw).
Proof.
  intros. split; [|intros (u & _ & _ & H); exact H].
  intros H. exists (usable * raw). split; [|split; [reflexivity|exact H]].
  unfold saturation in *. destruct data as [|d data]; [discriminate|].
  unfold bind in *. destruct (interp spline (d :: data) temperature); try discriminate.
  injection H as ->. reflexivity.
Qed.

(** ** C177: the saturation current *)

(** Two saturation data. *)
Definition falling (data : list datum) : Prop :=
  exists a b, Permutation data [a; b] /\ fst a < fst b /\ snd b <= snd a.

(** At the saturation current, and only there, the flux density of the core is the
    saturation one: a smaller current leaves it below, a larger one above. *)
Theorem C177_flux : forall spline data temperature proportion turns area l current,
  saturation_current spline data temperature proportion turns area (Some l) = Ok (Some current) ->
  (0 < turns)%Z -> 0 < area ->
  exists b, saturation spline data temperature proportion = Ok (Some b) /\
    forall i, (l * i / (inject_Z turns * area) < b <-> i < current) /\
              (l * i / (inject_Z turns * area) == b <-> i == current).
Proof.
  intros spline data temperature proportion turns area l current H N A.
  unfold saturation_current, bind in H.
  destruct (saturation spline data temperature proportion) as [b| | |]; try discriminate.
  destruct (Qle_bool l 0) eqn:L; [discriminate|]. qb.
  destruct b as [b|]; [|discriminate]. injection H as <-.
  exists b. split; [reflexivity|]. intros i.
  assert (P : 0 < inject_Z turns) by (change 0 with (inject_Z 0); rewrite <- Zlt_Qlt; exact N).
  assert (PA : 0 < inject_Z turns * area) by (apply Qmult_lt_0_compat; assumption).
  assert (E1 : l * i == (l * i / (inject_Z turns * area)) * (inject_Z turns * area)) by (field; split; lra).
  assert (E2 : (b * inject_Z turns * area / l) * l == b * (inject_Z turns * area)) by (field; lra).
  set (f := l * i / (inject_Z turns * area)) in *. set (c := b * inject_Z turns * area / l) in *.
  set (na := inject_Z turns * area) in *.
  repeat split; intros H.
  - apply Qnot_le_lt. intros Hc. assert (c * l <= i * l) by (apply Qmult_le_compat_r; lra).
    assert (f * na < b * na) by (apply Qmult_lt_compat_r; lra). lra.
  - apply Qnot_le_lt. intros Hc. assert (b * na <= f * na) by (apply Qmult_le_compat_r; lra).
    assert (i * l < c * l) by (apply Qmult_lt_compat_r; lra). lra.
  - assert (i * l == c * l) by (rewrite E2, <- H; lra). apply (Qmult_inj_r i c l); [lra|assumption].
  - assert (f * na == b * na) by (rewrite <- E1, H; lra). apply (Qmult_inj_r f b na); [lra|assumption].
Qed.

(** It is refused when there is no inductance or it is not positive, or when the
    material has no saturation, and only then. *)
Theorem C177_refused : forall spline data temperature proportion turns area inductance,
  (exists w, saturation_current spline data temperature proportion turns area inductance = Throw w) <->
  data = [] \/ (forall l, inductance = Some l -> l <= 0).
Proof.
  intros. unfold saturation_current. split.
  - intros [w H]. destruct data as [|d data]; [now left|]. right. intros l ->.
    destruct (Qle_bool l 0) eqn:L; [now qb|]. exfalso.
    unfold bind in H. destruct (saturation spline (d :: data) temperature proportion) eqn:S; try discriminate.
    assert (E : saturation spline (d :: data) temperature proportion = Throw why) by exact S.
    clear H. unfold saturation, interp in E.
    destruct data as [|b [|c data]]; [discriminate| |].
    + cbn [sorting insert] in E.
      destruct (Qlt_bool (fst b) (fst d)); unfold over in E; cbn in E;
        destruct (Qeq_bool _ _); discriminate.
    + unfold bind in E.
      destruct (dedup None (sorting (d :: b :: c :: data))) as [|? [|? [|? ?]]]; discriminate.
  - intros [-> | H]; [eexists; reflexivity|].
    destruct (saturation spline data temperature proportion) as [b|w|w|] eqn:S.
    + cbn. destruct inductance as [l|]; [|eexists; reflexivity].
      assert (L : Qle_bool l 0 = true) by (apply Qle_bool_iff; auto). rewrite L. eexists; reflexivity.
    + eexists; reflexivity.
    + exfalso. unfold saturation, interp in S.
      destruct data as [|a [|b [|c data]]]; try discriminate.
      * cbn [sorting insert] in S.
        destruct (Qlt_bool (fst b) (fst a)); unfold over in S; cbn in S;
          destruct (Qeq_bool _ _); discriminate.
      * unfold bind in S.
        destruct (dedup None (sorting (a :: b :: c :: data))) as [|? [|? [|? ?]]] eqn:D; try discriminate.
        assert (P := sorting_perm (a :: b :: c :: data)).
        destruct (sorting (a :: b :: c :: data)); [|discriminate].
        apply Permutation_sym, Permutation_nil in P. discriminate.
    + exfalso. unfold saturation, interp in S.
      destruct data as [|a [|b [|c data]]]; try discriminate.
      * cbn [sorting insert] in S.
        destruct (Qlt_bool (fst b) (fst a)); unfold over in S; cbn in S;
          destruct (Qeq_bool _ _); discriminate.
      * unfold bind in S.
        destruct (dedup None (sorting (a :: b :: c :: data))) as [|? [|? [|? ?]]]; discriminate.
Qed.

(** A hotter core of a material that loses flux density with temperature
    saturates no later. *)
Theorem C177_hotter : forall spline data t t' proportion turns area l i i',
  falling data -> t <= t' -> (0 <= turns)%Z -> 0 <= area ->
  saturation_current spline data t proportion turns area (Some l) = Ok (Some i) ->
  saturation_current spline data t' proportion turns area (Some l) = Ok (Some i') ->
  i' <= i.
Proof.
  intros spline data t t' proportion turns area l i i' (a & b & P & T & F) L N A H H'.
  assert (D : distinct [a; b]).
  { constructor; [constructor; [lra|constructor]|]. constructor; [constructor|constructor]. }
  assert (Dd : distinct data) by (apply (distinct_perm [a; b]); [now apply Permutation_sym|exact D]).
  assert (S : forall x, exists y, interp spline data x = Ok (Some y) /\
     (y - snd a) * (fst b - fst a) == (snd b - snd a) * (x - fst a)).
  { intros x. rewrite (C176_order spline data [a; b] x P Dd). apply C176_line. lra. }
  destruct (S t) as (y & Y & Ey). destruct (S t') as (y' & Y' & Ey').
  assert (M : y' <= y).
  { apply Qnot_lt_le. intros C.
    assert ((y - y') * (fst b - fst a) < 0 * (fst b - fst a)) by (apply Qmult_lt_compat_r; lra).
    assert (0 * (t' - t) <= (snd a - snd b) * (t' - t)) by (apply Qmult_le_compat_r; lra). lra. }
  assert (NZ : data <> []) by (intros ->; apply Permutation_nil in P; discriminate).
  unfold saturation_current, saturation in H, H'.
  destruct data as [|d data]; [congruence|]. clear NZ.
  rewrite Y in H. rewrite Y' in H'. cbn [bind] in H, H'.
  destruct (Qle_bool l 0) eqn:Z; [discriminate|]. qb.
  assert (Pn : 0 <= inject_Z turns) by (change 0 with (inject_Z 0); rewrite <- Zle_Qle; exact N).
  assert (K : forall x x', x' <= x ->
     x' * inject_Z turns * area / l <= x * inject_Z turns * area / l).
  { intros x x' G. unfold Qdiv. apply Qmult_le_compat_r; [|apply Qlt_le_weak, Qinv_lt_0_compat; exact Z].
    apply Qmult_le_compat_r; [|exact A]. apply Qmult_le_compat_r; assumption. }
  destruct proportion; cbn [option_map] in H, H'; injection H as <-; injection H' as <-; apply K;
    unfold usable; lra.
Qed.

Example C177_witness :
  falling two /\
  (exists i, saturation_current (fun _ _ => 0) two 25 true 10 (1 # 10000) (Some (1 # 100000)) = Ok (Some i) /\
     i == 35) /\
  (exists i, saturation_current (fun _ _ => 0) two 100 false 10 (1 # 10000) (Some (1 # 100000)) = Ok (Some i) /\
     i == 40).
Proof.
  split; [exists (25, 5 # 10), (100, 4 # 10); split; [apply perm_swap|cbn; split; lra]|].
  split; eexists; (split; [vm_compute; reflexivity|vm_compute; reflexivity]).
Qed.

(** Full claim: the saturation current is never negative. False: the line through
    two data goes on below zero at high temperatures. *)
Theorem C177_negative_refuted : forall spline, exists i,
  saturation_current spline two 500 true 10 (1 # 10000) (Some (1 # 100000)) = Ok (Some i) /\ i < 0.
Proof. intros. eexists. split; [vm_compute; reflexivity|]. vm_compute. reflexivity. Qed.

(** ** C178: the rated current *)

Section Rated.
Variable heat : Q -> Q -> outcome (Q * Q).
Variable ambient target : Q.

(** The rise of the component over the ambient that a current causes. *)
Definition rise (i r : Q) : Prop :=
  exists t, steady heat ambient i = Ok t /\ r = t - ambient.

Lemma rise_fun : forall i r r', rise i r -> rise i r' -> r = r'.
Proof. intros i r r' (t & H & ->) (t' & H' & ->). congruence. Qed.

Definition pow2 (k : nat) : Q := inject_Z (2 ^ Z.of_nat k).
Lemma pow2_S : forall k, pow2 (S k) == 2 * pow2 k.
Proof.
  intros k. unfold pow2. rewrite Nat2Z.inj_succ, Z.pow_succ_r by lia.
  rewrite inject_Z_mult. reflexivity.
Qed.
Lemma pow2_pos : forall k, 0 < pow2 k.
Proof.
  intros k. unfold pow2. change 0 with (inject_Z 0). rewrite <- Zlt_Qlt. apply Z.pow_pos_nonneg; lia.
Qed.

Lemma bisect_next : forall n lower upper,
  bisect heat ambient target (S n) lower upper =
  (t <- steady heat ambient ((1 # 2) * (lower + upper)) ;;
   if Qlt_bool (Qabs (t - ambient - target)) (1 # 10) then Ok ((1 # 2) * (lower + upper))
   else if Qlt_bool (t - ambient) target then bisect heat ambient target n ((1 # 2) * (lower + upper)) upper
   else bisect heat ambient target n lower ((1 # 2) * (lower + upper))).
Proof. reflexivity. Qed.

Lemma bisect_spec : forall n lower upper i,
  bisect heat ambient target n lower upper = Ok i ->
  lower <= upper ->
  (lower == 0 \/ exists r, rise lower r /\ r <= target - (1 # 10)) ->
  (exists r, rise upper r /\ target <= r) ->
  (exists r, rise i r /\ Qabs (r - target) < 1 # 10 /\ lower <= i <= upper) \/
  (exists lo hi, lo <= hi /\ lower <= lo /\ hi <= upper /\
     i == (1 # 2) * (lo + hi) /\ (hi - lo) * pow2 n == upper - lower /\
     (lo == 0 \/ exists r, rise lo r /\ r <= target - (1 # 10)) /\
     (exists r, rise hi r /\ target <= r)).
Proof.
  induction n as [|n IH]; intros lower upper i H L Lo Hi; cbn [bisect] in H.
  - injection H as <-. right. exists lower, upper. repeat split; auto; try lra.
    change (pow2 0) with 1. lra.
  - set (mid := (1 # 2) * (lower + upper)) in *.
    destruct (steady heat ambient mid) as [t| | |] eqn:S; try discriminate. cbn [bind] in H.
    assert (R : rise mid (t - ambient)) by (exists t; split; [exact S|reflexivity]).
    assert (M : mid == (1 # 2) * (lower + upper)) by reflexivity. clearbody mid.
    destruct (Qlt_bool (Qabs (t - ambient - target)) (1 # 10)) eqn:E; qb.
    + injection H as <-. left. exists (t - ambient). repeat split; auto; lra.
    + assert (Ab : t - ambient - target <= - (1 # 10) \/ (1 # 10) <= t - ambient - target).
      { destruct (Qlt_le_dec (t - ambient - target) 0) as [G | G].
        - rewrite Qabs_neg in E by lra. left. lra.
        - rewrite Qabs_pos in E by lra. right. lra. }
      assert (W : forall lo hi l u, (hi - lo) * pow2 n == u - l -> u - l == (1 # 2) * (upper - lower) ->
                    (hi - lo) * pow2 (Datatypes.S n) == upper - lower).
      { intros lo hi l u E1 E2. rewrite pow2_S. rewrite (Qmult_comm 2), Qmult_assoc, E1, E2. lra. }
      destruct (Qlt_bool (t - ambient) target) eqn:G; qb.
      * destruct (IH mid upper i H) as [(r & A & B & C1 & C2) | (lo & hi & A1 & A2 & A3 & A4 & A5 & A6 & A7)]; auto.
        -- lra.
        -- right. exists (t - ambient). split; [exact R|]. lra.
        -- left. exists r. repeat split; auto; lra.
        -- right. exists lo, hi. repeat split; auto; try lra. apply (W lo hi mid upper); auto. lra.
      * destruct (IH lower mid i H) as [(r & A & B & C1 & C2) | (lo & hi & A1 & A2 & A3 & A4 & A5 & A6 & A7)]; auto.
        -- lra.
        -- exists (t - ambient). split; [exact R|]. lra.
        -- left. exists r. repeat split; auto; lra.
        -- right. exists lo, hi. repeat split; auto; try lra. apply (W lo hi lower mid); auto. lra.
Qed.

Lemma grow_spec : forall fuel k upper u, upper == pow2 k -> (k <= 19)%nat ->
  grow heat ambient target fuel upper = Ok u ->
  exists m, (k <= m <= 19)%nat /\ u == pow2 m /\ exists r, rise u r /\ target <= r.
Proof.
  induction fuel as [|fuel IH]; intros k upper u U K H; cbn [grow] in H; [discriminate|].
  destruct (steady heat ambient upper) as [t| | |] eqn:S; try discriminate. cbn [bind] in H.
  destruct (Qlt_bool (t - ambient) target) eqn:E; qb.
  - destruct (Qlt_bool 1000000 (upper * 2)) eqn:G; [discriminate|]. qb.
    assert (K' : (Datatypes.S k <= 19)%nat).
    { destruct (Nat.eq_dec k 19) as [-> | ]; [|lia]. exfalso.
      rewrite U in G. vm_compute in G. now apply G. }
    apply (IH (Datatypes.S k)) in H; auto.
    + destruct H as (m & M & R). exists m. split; [lia|exact R].
    + rewrite pow2_S, U. lra.
  - injection H as <-. exists k. split; [lia|]. split; [exact U|].
    exists (t - ambient). split; [exists t; auto|exact E].
Qed.

Lemma bisect_strict : forall n lower upper i, bisect heat ambient target n lower upper = Ok i ->
  lower < upper -> lower < i < upper.
Proof.
  induction n as [|n IH]; intros lower upper i H Lt.
  - injection H as <-. lra.
  - rewrite bisect_next in H. set (md := (1 # 2) * (lower + upper)) in *.
    assert (Md : md == (1 # 2) * (lower + upper)) by reflexivity. clearbody md.
    destruct (steady heat ambient md); try discriminate. cbn [bind] in H.
    destruct (Qlt_bool (Qabs (a - ambient - target)) (1 # 10)); [injection H as <-; lra|].
    destruct (Qlt_bool (a - ambient) target); apply IH in H; lra.
Qed.

Lemma bisect_bracket : forall n u i w, bisect heat ambient target n 0 u = Ok i -> 0 < u ->
  u < w * pow2 n -> (exists r, rise u r /\ target <= r) ->
  0 < i < u /\
  ((exists r, rise i r /\ Qabs (r - target) < 1 # 10) \/
   (exists lo hi, lo < i < hi /\ hi - lo < w /\
      (lo == 0 \/ exists r, rise lo r /\ r <= target - (1 # 10)) /\
      (exists r, rise hi r /\ target <= r))).
Proof.
  intros n u i w H P Uw R. pose proof (bisect_strict n 0 u i H P) as St. split; [exact St|].
  assert (L0 : 0 <= u) by lra.
  destruct (bisect_spec n 0 u i H L0 (or_introl (Qeq_refl 0)) R) as
    [(r & A & B & _) | (lo & hi & A1 & A2 & A3 & A4 & A5 & A6 & A7)].
  - left. exists r. now split.
  - right. exists lo, hi. pose proof (pow2_pos n) as Pp.
    assert (Wp : 0 < hi - lo).
    { apply Qnot_le_lt. intros C. assert ((hi - lo) * pow2 n <= 0 * pow2 n)
        by (apply Qmult_le_compat_r; [exact C|apply Qlt_le_weak, pow2_pos]). lra. }
    assert (Ww : hi - lo < w).
    { apply Qnot_le_lt. intros C. assert (w * pow2 n <= (hi - lo) * pow2 n)
        by (apply Qmult_le_compat_r; [exact C|apply Qlt_le_weak, pow2_pos]). lra. }
    repeat split; auto; lra.
Qed.

(** The two stages of the search, of any lengths. *)
Definition search (doublings halvings : nat) : outcome Q :=
  if Qle_bool target 0 then Throw "invalid_argument"
  else upper <- grow heat ambient target doublings 1 ;; bisect heat ambient target halvings 0 upper.
Lemma rated_search : rated_current heat ambient target = search 64 40.
Proof. reflexivity. Qed.
Lemma search_ok : forall n m i, search n m = Ok i ->
  0 < target /\ exists u, grow heat ambient target n 1 = Ok u /\ bisect heat ambient target m 0 u = Ok i.
Proof.
  intros n m i H. unfold search in H. destruct (Qle_bool target 0) eqn:T; [discriminate|]. qb.
  destruct (grow heat ambient target n 1) as [u| | |]; try discriminate. split; [exact T|]. exists u. split; [reflexivity|exact H].
Qed.

(** The current given heats the component to within a tenth of a degree of the
    rise asked for, or lies between two currents less than half a microampere
    apart, the lower of which heats less than asked (or is none) and the higher at
    least as much. It is positive, and below 2^19 A. *)
Theorem C178_rated : forall i, rated_current heat ambient target = Ok i ->
  0 < i < 524288 /\
  ((exists r, rise i r /\ Qabs (r - target) < 1 # 10) \/
   (exists lo hi, lo < i < hi /\ hi - lo < 5 # 10000000 /\
      (lo == 0 \/ exists r, rise lo r /\ r <= target - (1 # 10)) /\
      (exists r, rise hi r /\ target <= r))).
Proof.
  intros i H0. rewrite rated_search in H0. apply search_ok in H0. destruct H0 as (T & u & G & H).
  apply (grow_spec 64 0 1 u) in G; [|reflexivity|lia].
  destruct G as (m & Mm & U & R).
  assert (Pu : 0 < u) by (rewrite U; apply pow2_pos).
  assert (Mu : u <= 524288).
  { rewrite U. unfold pow2. change 524288 with (inject_Z (2 ^ 19)). rewrite <- Zle_Qle.
    apply Z.pow_le_mono_r; lia. }
  assert (W : u < (5 # 10000000) * pow2 40).
  { assert (E : (5 # 10000000) * pow2 40 == 549755 + (813888 # 1000000)) by reflexivity. rewrite E. lra. }
  destruct (bisect_bracket 40 u i (5 # 10000000) H Pu W R) as (B & C).
  split; [lra|exact C].
Qed.

(** When the rise is no steeper than 200000 K/A, a current of zero does not heat
    and at least a tenth of a degree is asked, it is always within the tenth. *)
Theorem C178_within : forall i, rated_current heat ambient target = Ok i ->
  (forall a b ra rb, a <= b -> rise a ra -> rise b rb -> rb - ra <= 200000 * (b - a)) ->
  (forall z, z == 0 -> rise z 0) -> 1 # 10 <= target ->
  exists r, rise i r /\ Qabs (r - target) < 1 # 10.
Proof.
  intros i H Lip Z T. destruct (C178_rated i H) as (_ & [A | (lo & hi & I1 & W & Lo & Hi)]); [exact A|].
  exfalso. destruct Hi as (rh & Rh & Hh).
  destruct Lo as [Lo | (rl & Rl & Hl)].
  - specialize (Lip lo hi 0 rh). assert (rh - 0 <= 200000 * (hi - lo)) by (apply Lip; [lra|apply Z; exact Lo|exact Rh]). lra.
  - assert (rh - rl <= 200000 * (hi - lo)) by (apply Lip; [lra|exact Rl|exact Rh]). lra.
Qed.

Lemma pow2_twice : forall k, pow2 k * 2 = pow2 (S k).
Proof.
  intros k. unfold pow2, Qmult, inject_Z. cbn [Qnum Qden]. f_equal.
  rewrite Nat2Z.inj_succ, Z.pow_succ_r by lia. ring.
Qed.

Lemma grow_ends : (forall i, exists t, steady heat ambient i = Ok t) ->
  forall fuel k, (k <= 19)%nat -> (20 <= fuel + k)%nat ->
  (grow heat ambient target fuel (pow2 k) = Throw "CalculationException" /\
     forall j r, (k <= j <= 19)%nat -> rise (pow2 j) r -> r < target) \/
  (exists u, grow heat ambient target fuel (pow2 k) = Ok u /\
     exists j r, (k <= j <= 19)%nat /\ rise (pow2 j) r /\ target <= r).
Proof.
  intros Tot. induction fuel as [|fuel IH]; intros k K F; [lia|]. cbn [grow].
  destruct (Tot (pow2 k)) as (t & S). rewrite S. cbn [bind].
  assert (R : rise (pow2 k) (t - ambient)) by (exists t; auto).
  destruct (Qlt_bool (t - ambient) target) eqn:E; qb.
  - rewrite pow2_twice. destruct (Qlt_bool 1000000 (pow2 (Datatypes.S k))) eqn:G; qb.
    + left. split; [reflexivity|]. intros j r J Rj.
      assert (k = 19)%nat.
      { destruct (Nat.eq_dec k 19); [assumption|exfalso].
        assert (B : pow2 (Datatypes.S k) <= pow2 19).
        { unfold pow2. rewrite <- Zle_Qle. apply Z.pow_le_mono_r; lia. }
        assert (P : pow2 19 == 524288) by reflexivity. lra. }
      assert (j = k) by lia. subst j. rewrite (rise_fun _ _ _ Rj R). exact E.
    + assert (K' : (Datatypes.S k <= 19)%nat).
      { destruct (Nat.eq_dec k 19) as [-> | ]; [|lia]. exfalso. vm_compute in G. now apply G. }
      destruct (IH (Datatypes.S k) K') as [(A & B) | (u & A & j & r & J & B & C)]; [lia| |].
      * left. split; [exact A|]. intros j r J Rj.
        destruct (Nat.eq_dec j k) as [-> | ]; [rewrite (rise_fun _ _ _ Rj R); exact E|].
        apply (B j r); [lia|exact Rj].
      * right. exists u. split; [exact A|]. exists j, r. split; [lia|]. now split.
  - right. exists (pow2 k). split; [reflexivity|]. exists k, (t - ambient). split; [lia|]. now split.
Qed.

Lemma bisect_ends : (forall i, exists t, steady heat ambient i = Ok t) ->
  forall n lower upper, exists i, bisect heat ambient target n lower upper = Ok i.
Proof.
  intros Tot. induction n as [|n IH]; intros lower upper; cbn [bisect]; [eexists; reflexivity|].
  destruct (Tot ((1 # 2) * (lower + upper))) as (t & S). rewrite S. cbn [bind].
  destruct (Qlt_bool (Qabs (t - ambient - target)) (1 # 10)); [eexists; reflexivity|].
  destruct (Qlt_bool (t - ambient) target); apply IH.
Qed.

(** A rise that is not positive is refused. A positive one is refused only when
    none of 1, 2, 4, ... 2^19 A heats enough, and otherwise the search ends with a
    current. *)
Theorem C178_refused : (forall i, exists t, steady heat ambient i = Ok t) ->
  (rated_current heat ambient target = Throw "invalid_argument" <-> target <= 0) /\
  (rated_current heat ambient target = Throw "CalculationException" <->
     0 < target /\ forall k r, (k <= 19)%nat -> rise (pow2 k) r -> r < target) /\
  ((exists i, rated_current heat ambient target = Ok i) <->
     0 < target /\ exists k r, (k <= 19)%nat /\ rise (pow2 k) r /\ target <= r).
Proof.
  intros Tot. rewrite rated_search. unfold search.
  destruct (Qle_bool target 0) eqn:E; qb.
  - split; [split; auto|]. split; (split; [intros H; try discriminate H; destruct H; discriminate|intros [C _]; lra]).
  - change 1 with (pow2 0).
    destruct (grow_ends Tot 64 0) as [(A & B) | (u & A & j & r & J & B & C)]; [lia|lia| |]; rewrite A; cbn [bind].
    + split; [split; [discriminate|intros; lra]|]. split.
      * split; auto. intros _. split; [exact E|]. intros k r K R. apply (B k r); [lia|exact R].
      * split; [intros [i H]; discriminate|]. intros (_ & k & r & K & R & T). exfalso.
        assert (r < target) by (apply (B k r); [lia|exact R]). lra.
    + destruct (bisect_ends Tot 40 0 u) as (i & H). rewrite H.
      split; [split; [discriminate|intros; lra]|]. split.
      * split; [discriminate|]. intros (_ & F). exfalso.
        assert (r < target) by (apply (F j r); [lia|exact B]). lra.
      * split; [|intros _; exists i; reflexivity]. intros _. split; [exact E|].
        exists j, r. split; [lia|]. now split.
Qed.

(** The hot temperature comes from losses at a copper temperature which is the
    average the network answered the time before, at most six times; either that
    average is within 0.05 degrees of the new one, or it is the sixth. *)
Inductive passes : nat -> Q -> Q -> Q -> Prop :=
| first_pass : forall i, passes 0 i ambient ambient
| next_pass : forall n i w hot hot' w', passes n i w hot -> heat i w = Ok (hot', w') ->
    1 # 20 <= Qabs (w' - w) -> passes (S n) i w' hot'.

Theorem C178_settled : forall i t, steady heat ambient i = Ok t ->
  (exists n w hot w', (n < 6)%nat /\ passes n i w hot /\ heat i w = Ok (t, w') /\ Qabs (w' - w) < 1 # 20) \/
  (exists w, passes 6 i w t).
Proof.
  intros i t H. unfold steady in H.
  assert (G : forall m n w hot, (n + m = 6)%nat -> passes n i w hot -> settle heat m i w hot = Ok t ->
    (exists n w hot w', (n < 6)%nat /\ passes n i w hot /\ heat i w = Ok (t, w') /\ Qabs (w' - w) < 1 # 20) \/
    (exists w, passes 6 i w t)).
  { induction m as [|m IH]; intros n w hot N P S; cbn [settle] in S.
    - injection S as <-. right. exists w. assert (n = 6)%nat by lia. subst n. exact P.
    - destruct (heat i w) as [[h w']| | |] eqn:Hh; try discriminate. cbn [bind fst snd] in S.
      destruct (Qlt_bool (Qabs (w' - w)) (5 # 100)) eqn:E; qb.
      + injection S as <-. left. exists n, w, hot, w'. split; [lia|]. split; [exact P|]. split; [exact Hh|lra].
      + apply (IH (Datatypes.S n) w' h); [lia| |exact S]. econstructor; eauto. lra. }
  apply (G 6%nat 0%nat ambient ambient); [lia|constructor|exact H].
Qed.

(** When the copper moves the average coil temperature by at most a fifth of its
    own change (which is what its resistance does at rises below about fifty
    degrees), the losses are those of a copper within 0.0625 degrees of the steady
    state, or within 1/3125 of the distance from the ambient to it. *)
Theorem C178_steady : forall i t s hs, steady heat ambient i = Ok t ->
  heat i s = Ok (hs, s) ->
  (forall w h w', heat i w = Ok (h, w') -> Qabs (w' - s) <= (1 # 5) * Qabs (w - s)) ->
  exists w w', heat i w = Ok (t, w') /\
    (Qabs (w - s) <= 625 # 10000 \/ Qabs (w - s) <= (1 # 3125) * Qabs (ambient - s)).
Proof.
  intros i t s hs H Hs C. destruct (C178_settled i t H) as [(n & w & hot & w' & N & P & Hw & D) | (w & P)].
  - exists w, w'. split; [exact Hw|]. left.
    specialize (C w t w' Hw).
    assert (T : Qabs (w - s) <= Qabs (w' - w) + Qabs (w' - s)).
    { setoid_replace (w - s) with (- (w' - w) + (w' - s)) by ring.
      rewrite <- (Qabs_opp (w' - w)). apply Qabs_triangle. }
    lra.
  - assert (G : forall n j w h, passes n j w h -> j = i -> Qabs (w - s) * inject_Z (5 ^ Z.of_nat n) <= Qabs (ambient - s)).
    { intros n j v h Pn. induction Pn as [j | n j v h h' v' Pn IH Hv Hd]; intros ->.
      - change (inject_Z (5 ^ Z.of_nat 0)) with 1. lra.
      - specialize (IH eq_refl). specialize (C v h' v' Hv).
        rewrite Nat2Z.inj_succ, Z.pow_succ_r by lia. rewrite inject_Z_mult.
        assert (Pp : 0 <= inject_Z (5 ^ Z.of_nat n)).
        { change 0 with (inject_Z 0). rewrite <- Zle_Qle. apply Z.pow_nonneg. lia. }
        apply Qle_trans with (Qabs (v - s) * inject_Z (5 ^ Z.of_nat n)); [|exact IH].
        change (inject_Z 5) with 5.
        rewrite Qmult_assoc. apply Qmult_le_compat_r; [|exact Pp]. lra. }
    inversion P as [|n i' v h t' w0 Pn Hv Hd]; subst.
    exists v, w. split; [exact Hv|]. right.
    specialize (G 5%nat i v h Pn eq_refl).
    change (inject_Z (5 ^ Z.of_nat 5)) with 3125 in G. lra.
Qed.

End Rated.

(** A larger rise never gets a current smaller by a microampere or more: targets
    a fifth of a degree apart, and a component that heats more with more
    current. *)
Theorem C178_monotone : forall heat ambient target target' i i',
  (forall a b ra rb, rise heat ambient a ra -> rise heat ambient b rb -> ra < rb -> a < b) ->
  0 < target -> target + (1 # 5) <= target' ->
  (forall z r, z == 0 -> rise heat ambient z r -> r == 0) ->
  rated_current heat ambient target = Ok i -> rated_current heat ambient target' = Ok i' ->
  i < i' + (1 # 1000000).
Proof.
  intros heat ambient target target' i i' Mono T D Z H H'.
  destruct (C178_rated heat ambient target i H) as (P & A).
  destruct (C178_rated heat ambient target' i' H') as (P' & A').
  assert (Ab : forall x, Qabs x < 1 # 10 -> - (1 # 10) < x < 1 # 10).
  { intros x Hx. apply Qabs_Qlt_condition in Hx. exact Hx. }
  destruct A as [(r & R & N) | (lo & hi & I1 & W & Lo & (rh & Rh & Hh))];
  destruct A' as [(r' & R' & N') | (lo' & hi' & I1' & W' & Lo' & (rh' & Rh' & Hh'))].
  - apply Ab in N. apply Ab in N'. assert (i < i') by (apply (Mono _ _ r r'); auto; lra). lra.
  - apply Ab in N. assert (i < hi') by (apply (Mono _ _ r rh'); auto; lra). lra.
  - apply Ab in N'. destruct Lo as [Lo | (rl & Rl & Hl)]; [lra|].
    assert (lo < i') by (apply (Mono _ _ rl r'); auto; lra). lra.
  - destruct Lo as [Lo | (rl & Rl & Hl)]; [lra|].
    assert (lo < hi') by (apply (Mono _ _ rl rh'); auto; lra). lra.
Qed.

(** A component of 5 K per square ampere, whatever its copper. *)
Definition plain (i w : Q) : outcome (Q * Q) := Ok (25 + 5 * (i * i), 25 + 4 * (i * i)).
Definition answers (o : outcome Q) (x : Q) : bool :=
  match o with Ok i => Qeq_bool i x | _ => false end.
Example C178_witness :
  answers (rated_current plain 25 45) 3 = true /\
  answers (rated_current plain 25 (125 # 10)) (101 # 64) = true /\
  rated_current plain 25 (5 * (524288 * 524288) + 1) = Throw "CalculationException".
Proof.
  split; [vm_compute; reflexivity|]. split; [vm_compute; reflexivity|]. vm_compute. reflexivity.
Qed.
Example C178_steady_witness :
  steady plain 25 3 = Ok (25 + 5 * (3 * 3)) /\
  plain 3 61 = Ok (25 + 5 * (3 * 3), 25 + 4 * (3 * 3)) /\ 25 + 4 * (3 * 3) == 61.
Proof. vm_compute. auto. Qed.

(** A winding whose losses grow by 1/128 per degree. *)
Definition copper (i w : Q) : outcome (Q * Q) :=
  let t := 25 + i * i * (1 + (w - 25) / 128) in Ok (t, t).

(** Full claim: the component settles at the rise asked for when it carries the
    rated current. False: six passes are made and the last is taken as it is, so a
    large rise is answered with a current at which every copper temperature at or
    above the ambient is followed by a higher one. *)
Theorem C178_runaway_refuted : exists target i,
  rated_current copper 25 target = Ok i /\
  (exists r, rise copper 25 i r /\ Qabs (r - target) < 1 # 10) /\
  forall w t w', 25 <= w -> copper i w = Ok (t, w') -> w + 144 <= w'.
Proof.
  exists (11834 # 10), (48 # 4). split; [vm_compute; reflexivity|]. split.
  - pose (t := match steady copper 25 (48 # 4) with Ok t => t | _ => 0 end).
    exists (t - 25). split; [exists t; split; vm_compute; reflexivity|]. vm_compute. reflexivity.
  - intros w t w' W Hw. unfold copper in Hw. injection Hw as <- <-.
    change ((48 # 4) * (48 # 4)) with (2304 # 16).
    unfold Qdiv. change (/ 128) with (1 # 128). lra.
Qed.

Print Assumptions C176_order.
Print Assumptions C176_line.
Print Assumptions C176_constant.
Print Assumptions C176_repeated.
Print Assumptions C176_finite_refuted.
Print Assumptions C176_missing.
Print Assumptions C176_proportion.
Print Assumptions C177_flux.
Print Assumptions C177_refused.
Print Assumptions C177_hotter.
Print Assumptions C177_negative_refuted.
Print Assumptions C178_rated.
Print Assumptions C178_within.
Print Assumptions C178_refused.
Print Assumptions C178_settled.
Print Assumptions C178_steady.
Print Assumptions C178_monotone.
Print Assumptions C178_runaway_refuted.
Print Assumptions C176_line_repeated.
Print Assumptions C176_none.
