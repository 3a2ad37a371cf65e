(** C165: whether a magnetic fits in a volume is a matter of turning its box.
    C166: the box of a magnetic holds its core, its bobbin and its turns. *)
From Coq Require Import ZArith QArith Qabs List String Bool Lqa Permutation.
From Verif Require Import Base QAux FitModel.
Import ListNotations.
Open Scope Q_scope.

(** ** Vocabulary *)

(** A limit that is not stated allows everything. *)
Definition under (x : Q) (limit : option Q) : Prop :=
  match limit with Some l => x <= l | None => True end.

(** The box, as it stands, is within the limits. *)
Definition inside (m : box) (l : limits) : Prop :=
  under (b_width m) (l_width l) /\ under (b_height m) (l_height l) /\ under (b_depth m) (l_depth l).

(** [n] is [m] turned by quarter turns: the same three sides in some order. *)
Definition turned (m n : box) : Prop :=
  Permutation [b_width m; b_height m; b_depth m] [b_width n; b_height n; b_depth n].

(** Looser limits, smaller boxes. *)
Definition looser (a b : option Q) : Prop :=
  match b with None => True | Some y => match a with Some x => x <= y | None => False end end.
Definition looser_limits (k l : limits) : Prop :=
  looser (l_width k) (l_width l) /\ looser (l_height k) (l_height l) /\ looser (l_depth k) (l_depth l).
Definition smaller (m n : box) : Prop :=
  b_width m <= b_width n /\ b_height m <= b_height n /\ b_depth m <= b_depth n.

Lemma le_iff : forall x y, Qle_bool x y = true <-> x <= y.
Proof. intros. apply Qle_bool_iff. Qed.

(** ** C165 *)

(** The six orders of three sides. *)
Lemma three_orders : forall (x y z a b c : Q), Permutation [x; y; z] [a; b; c] ->
  (a = x /\ b = y /\ c = z) \/ (a = x /\ b = z /\ c = y) \/ (a = y /\ b = x /\ c = z) \/
  (a = y /\ b = z /\ c = x) \/ (a = z /\ b = x /\ c = y) \/ (a = z /\ b = y /\ c = x).
Proof.
  intros x y z a b c P.
  assert (Two : forall (u v r s : Q), Permutation [u; v] [r; s] -> (r = u /\ s = v) \/ (r = v /\ s = u)).
  { intros u v r s Q0. apply Permutation_length_2_inv in Q0. destruct Q0 as [E|E]; inversion E; auto. }
  assert (A : In a [x; y; z]) by (apply (Permutation_in a (Permutation_sym P)); left; reflexivity).
  destruct A as [E|[E|[E|[]]]]; subst a.
  - apply Permutation_cons_inv in P. apply Two in P. tauto.
  - assert (P' : Permutation [y; x; z] [y; b; c]) by (eapply perm_trans; [apply perm_swap|exact P]).
    apply Permutation_cons_inv in P'. apply Two in P'. tauto.
  - assert (P' : Permutation [z; x; y] [z; b; c]).
    { eapply perm_trans; [|exact P]. apply (perm_trans (l' := [x; z; y])); [apply perm_swap|apply perm_skip, perm_swap]. }
    apply Permutation_cons_inv in P'. apply Two in P'. tauto.
Qed.

Lemma orders_turned : forall x y z,
  Permutation [x; y; z] [x; y; z] /\ Permutation [x; y; z] [x; z; y] /\ Permutation [x; y; z] [y; x; z] /\
  Permutation [x; y; z] [y; z; x] /\ Permutation [x; y; z] [z; x; y] /\ Permutation [x; y; z] [z; y; (x : Q)].
Proof.
  intros x y z.
  assert (P1 : Permutation [x; y; z] [x; z; y]) by (apply perm_skip, perm_swap).
  assert (P2 : Permutation [x; y; z] [y; x; z]) by apply perm_swap.
  assert (P3 : Permutation [x; y; z] [y; z; x]) by (eapply perm_trans; [exact P2|apply perm_skip, perm_swap]).
  assert (P4 : Permutation [x; y; z] [z; x; y]) by (eapply perm_trans; [exact P1|apply perm_swap]).
  assert (P5 : Permutation [x; y; z] [z; y; x]) by (eapply perm_trans; [exact P4|apply perm_skip, perm_swap]).
  repeat split; auto.
Qed.

(** As it stands: within every stated limit, and nothing else. *)
Theorem C165_as_it_stands : forall m l, fits m l false = true <-> inside m l.
Proof.
  intros m [[w|] [h|] [d|]]; unfold fits, inside, under; cbn [l_width l_height l_depth];
    rewrite ?andb_true_iff, ?le_iff; tauto.
Qed.

(** Free to turn: some quarter turn of the box is within every stated limit. *)
Theorem C165_turned : forall m l,
  fits m l true = true <-> exists n, turned m n /\ inside n l.
Proof.
  intros [mw mh md] [lw lh ld]. split.
  - intro F.
    pose proof (orders_turned mw mh md) as (P0 & P1 & P2 & P3 & P4 & P5).
    assert (K : forall a b c, Permutation [mw; mh; md] [a; b; c] ->
                under a lw -> under b lh -> under c ld ->
                exists n, turned (mkBox mw mh md) n /\ inside n (mkLimits lw lh ld)).
    { intros a b c P A B C. exists (mkBox a b c). split; [exact P|]. repeat split; assumption. }
    destruct lw as [w|], lh as [h|], ld as [d|];
      unfold fits, fits_one_dimension, fits_two_dimensions, fits_three_dimensions in F;
      cbn [l_width l_height l_depth b_width b_height b_depth] in F;
      rewrite ?orb_true_iff, ?andb_true_iff, ?orb_true_iff, ?le_iff in F; unfold under in K;
      repeat match goal with
             | H : _ \/ _ |- _ => destruct H
             | H : _ /\ _ |- _ => destruct H
             end;
      first [ solve [eapply (K _ _ _ P0); auto] | solve [eapply (K _ _ _ P1); auto]
            | solve [eapply (K _ _ _ P2); auto] | solve [eapply (K _ _ _ P3); auto]
            | solve [eapply (K _ _ _ P4); auto] | solve [eapply (K _ _ _ P5); auto] ].
  - intros ([a b c] & T & A & B & C). unfold turned in T. cbn [b_width b_height b_depth] in *.
    apply three_orders in T.
    destruct lw as [w|], lh as [h|], ld as [d|];
      unfold fits, fits_one_dimension, fits_two_dimensions, fits_three_dimensions;
      cbn [l_width l_height l_depth b_width b_height b_depth] in *; unfold under in *;
      rewrite ?orb_true_iff, ?andb_true_iff, ?orb_true_iff, ?le_iff;
      destruct T as [T|[T|[T|[T|[T|T]]]]]; destruct T as (-> & -> & ->); tauto.
Qed.

Lemma turned_refl : forall m, turned m m.
Proof. intro m. apply Permutation_refl. Qed.
Lemma turned_sym : forall m n, turned m n -> turned n m.
Proof. intros m n. apply Permutation_sym. Qed.
Lemma turned_trans : forall m n o, turned m n -> turned n o -> turned m o.
Proof. intros m n o. apply Permutation_trans. Qed.

(** What fits as it stands fits when it may be turned. *)
Theorem C165_turning_helps : forall m l, fits m l false = true -> fits m l true = true.
Proof. intros m l H. apply C165_turned. exists m. split; [apply turned_refl|]. apply C165_as_it_stands. exact H. Qed.

(** Free to turn, it does not matter how the magnetic was drawn. *)
Theorem C165_drawing : forall m n l, turned m n -> fits m l true = fits n l true.
Proof.
  intros m n l T. apply eq_iff_eq_true. rewrite !C165_turned. split; intros (o & A & B); exists o; split; auto.
  - exact (turned_trans _ _ _ (turned_sym _ _ T) A).
  - exact (turned_trans _ _ _ T A).
Qed.

Lemma under_looser : forall x y k l, x <= y -> under y k -> looser k l -> under x l.
Proof.
  intros x y [k|] [l|] A B C; unfold under, looser in *; try lra; auto; contradiction.
Qed.

(** A looser volume and a smaller magnetic still fit. *)
Theorem C165_monotone : forall m n k l rotation,
  smaller m n -> looser_limits k l -> fits n k rotation = true -> fits m l rotation = true.
Proof.
  intros [a b c] [x y z] k l rotation (A & B & C) (KW & KH & KD) F. cbn [b_width b_height b_depth] in *.
  destruct rotation.
  - apply C165_turned in F. destruct F as ([u v w] & T & I1 & I2 & I3). apply C165_turned.
    unfold turned in T. cbn [b_width b_height b_depth] in *. apply three_orders in T.
    pose proof (orders_turned a b c) as (P0 & P1 & P2 & P3 & P4 & P5).
    destruct T as [T|[T|[T|[T|[T|T]]]]]; destruct T as (-> & -> & ->).
    + exists (mkBox a b c). split; [exact P0|]. repeat split; eapply under_looser; eassumption.
    + exists (mkBox a c b). split; [exact P1|]. repeat split; eapply under_looser; eassumption.
    + exists (mkBox b a c). split; [exact P2|]. repeat split; eapply under_looser; eassumption.
    + exists (mkBox b c a). split; [exact P3|]. repeat split; eapply under_looser; eassumption.
    + exists (mkBox c a b). split; [exact P4|]. repeat split; eapply under_looser; eassumption.
    + exists (mkBox c b a). split; [exact P5|]. repeat split; eapply under_looser; eassumption.
  - apply C165_as_it_stands in F. destruct F as (I1 & I2 & I3). cbn [b_width b_height b_depth] in *.
    apply C165_as_it_stands. repeat split; cbn [b_width b_height b_depth]; eapply under_looser; eassumption.
Qed.

(** The filter of maximum dimensions answers as the test does when all three limits
    are stated… *)
Theorem C165_filter_partial : forall m l w h d v s m',
  l_width l = Some w -> l_height l = Some h -> l_depth l = Some d ->
  dimensions_filter m (Some l) = Ok (v, s, m') ->
  magnetic_fits m l true = Ok (v, m') /\ 0 <= s.
Proof.
  intros m [lw lh ld] w h d v s m' A B C F. cbn [l_width l_height l_depth] in A, B, C. subst.
  unfold dimensions_filter, magnetic_fits in *. destruct (maximum_dimensions m) as [[b n]| | |]; try discriminate.
  cbn [bind fst snd l_width l_height l_depth] in *. inversion F; subst. split; [reflexivity|].
  assert (K : forall x : Q, 0 <= x * x) by (intro x; destruct (Qlt_le_dec x 0); nra).
  pose proof (K (w - b_width b)). pose proof (K (h - b_height b)). pose proof (K (d - b_depth b)). lra.
Qed.

(** …but states no answer, only an exception, when one limit is left open, although
    the test has one for every magnetic whose dimensions are known. *)
Theorem C165_open_limit_refuted : forall m l b m',
  maximum_dimensions m = Ok (b, m') ->
  l_width l = None \/ l_height l = None \/ l_depth l = None ->
  (exists v, magnetic_fits m l true = Ok (v, m')) /\
  dimensions_filter m (Some l) = Throw "bad optional access".
Proof.
  intros m [lw lh ld] b m' D O. cbn [l_width l_height l_depth] in O.
  unfold magnetic_fits, dimensions_filter. rewrite D. cbn [bind fst snd l_width l_height l_depth].
  split; [eexists; reflexivity|]. destruct lw, lh, ld; try reflexivity.
  destruct O as [O|[O|O]]; discriminate.
Qed.

(** ** C166 *)

(** A rectangle of half sides [x], [y] around the centre lies in the face of the box. *)
Definition covers (b : box) (x y : Q) : Prop := 2 * x <= b_width b /\ 2 * y <= b_height b.

(** How far a turn truly reaches from the centre: its outer crossing if it has one. *)
Definition where_it_is (t : turn) : option (Q * Q) :=
  match t_additional t with Some (p :: _) => Some p | Some nil => None | None => Some (t_centre t) end.
Definition reaches (t : turn) (x y : Q) : Prop :=
  exists px py w h, where_it_is t = Some (px, py) /\ t_size t = Some (w, h) /\
                    x == Qabs px + w / 2 /\ y == Qabs py + h / 2.

Lemma cmax_l : forall a b, a <= cmax a b.
Proof. intros a b. unfold cmax, Qlt_bool. destruct (Qle_bool b a) eqn:E; cbn [negb].
  - lra. - assert (~ b <= a) by (intro K; apply Qle_bool_iff in K; congruence). lra. Qed.
Lemma cmax_r : forall a b, b <= cmax a b.
Proof. intros a b. unfold cmax, Qlt_bool. destruct (Qle_bool b a) eqn:E; cbn [negb].
  - apply Qle_bool_iff in E. exact E. - lra. Qed.
Lemma cmax_lub : forall a b c, a <= c -> b <= c -> cmax a b <= c.
Proof. intros a b c A B. unfold cmax. destruct (Qlt_bool a b); assumption. Qed.

Lemma reach_spec : forall l w h r, reach_loop l w h = Ok r ->
  w <= fst r /\ h <= snd r /\
  (forall t x y, In t l -> reaches t x y -> x <= fst r /\ y <= snd r).
Proof.
  induction l as [|t l IH]; intros w h r H; cbn [reach_loop] in H.
  - inversion H; subst. cbn [fst snd]. split; [lra|]. split; [lra|]. intros t x y [].
  - destruct (turn_reach t) as [[a b]| | |] eqn:T; try discriminate. cbn [bind fst snd] in H.
    destruct (IH _ _ _ H) as (A & B & C).
    pose proof (cmax_l w a). pose proof (cmax_r w a). pose proof (cmax_l h b). pose proof (cmax_r h b).
    split; [lra|]. split; [lra|].
    intros u x y [E|I0] R.
    + subst u. destruct R as (px & py & sw & sh & W & Z0 & X & Y). unfold turn_reach, where_it_is in *.
      destruct (t_additional t) as [[|[ax ay] ps]|]; try discriminate.
      * rewrite Z0 in T. inversion W; subst. inversion T; subst. lra.
      * rewrite Z0 in T. destruct (t_centre t) as [cx cy]. inversion W; subst. cbn [fst snd] in T. inversion T; subst. lra.
    + exact (C u x y I0 R).
Qed.

(** The first answer of a magnetic: what it must hold. *)
Lemma fresh : forall m b m', m_memory m = None -> maximum_dimensions m = Ok (b, m') ->
  exists c, coil_dimensions (m_coil m) = Ok c /\
    b = mkBox (cmax (b_width (m_core m)) (b_width c)) (cmax (b_height (m_core m)) (b_height c))
              (cmax (b_depth (m_core m)) (b_depth c)) /\
    m' = mkMagnetic (m_core m) (m_coil m) (Some b).
Proof.
  intros m b m' N H. unfold maximum_dimensions in H. rewrite N in H.
  destruct (coil_dimensions (m_coil m)) as [c| | |] eqn:C; try discriminate. cbn [bind] in H.
  exists c. inversion H; subst. auto.
Qed.

(** The box holds the core and the bobbin. *)
Theorem C166_core_and_bobbin : forall m b m',
  m_memory m = None -> maximum_dimensions m = Ok (b, m') ->
  smaller (m_core m) b /\
  (forall k, bobbin_dimensions (co_bobbin (m_coil m)) = Ok k -> smaller k b).
Proof.
  intros m b m' N H. destruct (fresh _ _ _ N H) as (c & C & -> & ->). unfold smaller. cbn [b_width b_height b_depth].
  split. { repeat split; apply cmax_l. }
  intros k K. unfold coil_dimensions in C. rewrite K in C. cbn [bind] in C.
  destruct (co_turns (m_coil m)) as [l|]; [|discriminate].
  destruct (reach_loop l 0 0) as [r| | |]; try discriminate. cbn [bind] in C. inversion C; subst. cbn [b_width b_height b_depth].
  repeat split; (eapply Qle_trans; [|apply cmax_r]); apply cmax_r.
Qed.

(** What the bobbin of a two piece set takes: column and window on both sides across and
    in depth, the window and both walls upwards. *)
Theorem C166_bobbin_size : forall o k w,
  bo_shape o = RECTANGULAR -> bo_column_width o = Some w -> bobbin_dimensions o = Ok k ->
  b_width k == 2 * w + 2 * bo_window_width o /\
  b_depth k == 2 * bo_column_depth o + 2 * bo_window_width o /\
  b_height k == bo_window_height o + 2 * bo_wall o.
Proof.
  intros o k w R W H. unfold bobbin_dimensions in H. rewrite R, W in H.
  assert (K : k = mkBox (2 * (w + bo_window_width o)) (2 * bo_wall o + bo_window_height o) (2 * (bo_column_depth o + bo_window_width o))) by congruence.
  rewrite K. cbn [b_width b_height b_depth]. repeat split; ring.
Qed.

Theorem C166_bobbin : forall m b m' w,
  m_memory m = None -> maximum_dimensions m = Ok (b, m') ->
  bo_shape (co_bobbin (m_coil m)) = RECTANGULAR -> bo_column_width (co_bobbin (m_coil m)) = Some w ->
  let o := co_bobbin (m_coil m) in
  2 * w + 2 * bo_window_width o <= b_width b /\
  2 * bo_column_depth o + 2 * bo_window_width o <= b_depth b /\
  bo_window_height o + 2 * bo_wall o <= b_height b.
Proof.
  intros m b m' w N H R W o. destruct (C166_core_and_bobbin _ _ _ N H) as (_ & K).
  unfold bobbin_dimensions in K. rewrite R, W in K. destruct (K _ eq_refl) as (A & B & C).
  cbn [b_width b_height b_depth] in A, B, C. fold o in A, B, C. repeat split; lra.
Qed.

Lemma cmax_one : forall a b, cmax a b = a \/ cmax a b = b.
Proof. intros a b. unfold cmax. destruct (Qlt_bool a b); auto. Qed.

Lemma reach_attained : forall l w h r, reach_loop l w h = Ok r ->
  (fst r = w \/ exists t x y, In t l /\ reaches t x y /\ fst r == x) /\
  (snd r = h \/ exists t x y, In t l /\ reaches t x y /\ snd r == y).
Proof.
  induction l as [|t l IH]; intros w h r H; cbn [reach_loop] in H.
  - inversion H; subst. cbn [fst snd]. auto.
  - destruct (turn_reach t) as [[a b]| | |] eqn:T; try discriminate. cbn [bind fst snd] in H.
    assert (R : reaches t a b).
    { unfold turn_reach in T. unfold reaches, where_it_is.
      destruct (t_additional t) as [[|[ax ay] ps]|]; try discriminate.
      - destruct (t_size t) as [[sw sh]|]; [|discriminate]. inversion T; subst. exists ax, ay, sw, sh. repeat split; reflexivity.
      - destruct (t_size t) as [[sw sh]|]; [|discriminate]. destruct (t_centre t) as [cx cy]. cbn [fst snd] in T.
        inversion T; subst. exists cx, cy, sw, sh. repeat split; reflexivity. }
    destruct (IH _ _ _ H) as (A & B). split.
    + destruct A as [A|(u & x & y & I0 & RU & E)].
      * destruct (cmax_one w a) as [M|M]; rewrite M in A; [left; exact A|].
        right. exists t, a, b. split; [left; reflexivity|]. split; [exact R|]. rewrite A. reflexivity.
      * right. exists u, x, y. split; [right; exact I0|auto].
    + destruct B as [B|(u & x & y & I0 & RU & E)].
      * destruct (cmax_one h b) as [M|M]; rewrite M in B; [left; exact B|].
        right. exists t, a, b. split; [left; reflexivity|]. split; [exact R|]. rewrite B. reflexivity.
      * right. exists u, x, y. split; [right; exact I0|auto].
Qed.

(** No side of the box is longer than something in it: the core, the bobbin or, across
    and upwards, the reach of some turn; in depth, that reach less what the bobbin is
    deeper than wide. *)
Theorem C166_no_larger : forall m b m' k l,
  m_memory m = None -> maximum_dimensions m = Ok (b, m') ->
  bobbin_dimensions (co_bobbin (m_coil m)) = Ok k -> co_turns (m_coil m) = Some l ->
  (b_width b = b_width (m_core m) \/ b_width b = b_width k \/ b_width b = 0 \/
     exists t x y, In t l /\ reaches t x y /\ b_width b == x) /\
  (b_height b = b_height (m_core m) \/ b_height b = b_height k \/ b_height b = 0 \/
     exists t x y, In t l /\ reaches t x y /\ b_height b == y) /\
  (b_depth b = b_depth (m_core m) \/ b_depth b = b_depth k \/ b_depth b = 0 + (b_width k - b_depth k) \/
     exists t x y, In t l /\ reaches t x y /\ b_depth b == x + b_width k - b_depth k).
Proof.
  intros m b m' k l N H K L. destruct (fresh _ _ _ N H) as (c & C & -> & ->).
  unfold coil_dimensions in C. rewrite K in C. cbn [bind] in C. rewrite L in C.
  destruct (reach_loop l 0 0) as [r| | |] eqn:E; try discriminate. cbn [bind] in C. inversion C; subst.
  cbn [b_width b_height b_depth]. destruct (reach_attained _ _ _ _ E) as (A & B). repeat split.
  - destruct (cmax_one (b_width (m_core m)) (cmax (fst r) (b_width k))) as [M|M]; rewrite M; [auto|right].
    destruct (cmax_one (fst r) (b_width k)) as [M1|M1]; rewrite M1; [right|auto].
    destruct A as [A|(t & x & y & I0 & R & X)]; [left; exact A|right; exists t, x, y; auto].
  - destruct (cmax_one (b_height (m_core m)) (cmax (snd r) (b_height k))) as [M|M]; rewrite M; [auto|right].
    destruct (cmax_one (snd r) (b_height k)) as [M1|M1]; rewrite M1; [right|auto].
    destruct B as [A'|(t & x & y & I0 & R & X)]; [left; exact A'|right; exists t, x, y; auto].
  - destruct (cmax_one (b_depth (m_core m)) (cmax (fst r + (b_width k - b_depth k)) (b_depth k))) as [M|M]; rewrite M; [auto|right].
    destruct (cmax_one (fst r + (b_width k - b_depth k)) (b_depth k)) as [M1|M1]; rewrite M1; [right|auto].
    destruct A as [A|(t & x & y & I0 & R & X)]; [left; rewrite A; reflexivity|right; exists t, x, y].
    split; [exact I0|]. split; [exact R|]. rewrite X. ring.
Qed.

(** The turns are held only by a box of twice the sides: the reach of a turn from the
    centre is compared with the whole width and height. *)
Theorem C166_turns_partial : forall m b m' l t x y,
  m_memory m = None -> maximum_dimensions m = Ok (b, m') ->
  co_turns (m_coil m) = Some l -> In t l -> reaches t x y ->
  covers (mkBox (2 * b_width b) (2 * b_height b) (b_depth b)) x y.
Proof.
  intros m b m' l t x y N H L T R. destruct (fresh _ _ _ N H) as (c & C & -> & ->).
  unfold coil_dimensions in C. destruct (bobbin_dimensions (co_bobbin (m_coil m))) as [k| | |]; try discriminate.
  cbn [bind] in C. rewrite L in C. destruct (reach_loop l 0 0) as [r| | |] eqn:E; try discriminate.
  cbn [bind] in C. inversion C; subst. destruct (reach_spec _ _ _ _ E) as (_ & _ & S).
  destruct (S t x y T R) as (A & B). unfold covers. cbn [b_width b_height b_depth].
  pose proof (cmax_l (fst r) (b_width k)). pose proof (cmax_r (b_width (m_core m)) (cmax (fst r) (b_width k))).
  pose proof (cmax_l (snd r) (b_height k)). pose proof (cmax_r (b_height (m_core m)) (cmax (snd r) (b_height k))).
  split; lra.
Qed.

(** The turns of a toroid stick out of its box: as long as they do not reach beyond
    twice the core, the box is as wide and high as the bare core. *)
Theorem C166_turns_refuted : forall m b m' l,
  m_memory m = None -> maximum_dimensions m = Ok (b, m') ->
  bo_shape (co_bobbin (m_coil m)) = ROUND -> co_turns (m_coil m) = Some l ->
  0 <= b_width (m_core m) -> 0 <= b_height (m_core m) ->
  (forall t x y, In t l -> reaches t x y -> x <= b_width (m_core m) /\ y <= b_height (m_core m)) ->
  b_width b == b_width (m_core m) /\ b_height b == b_height (m_core m).
Proof.
  intros m b m' l N H RO L PW PH T. destruct (fresh _ _ _ N H) as (c & C & -> & ->).
  unfold coil_dimensions, bobbin_dimensions in C. rewrite RO in C. cbn [bind b_width b_height b_depth] in C. rewrite L in C.
  destruct (reach_loop l 0 0) as [r| | |] eqn:E; try discriminate. cbn [bind] in C. inversion C; subst. cbn [b_width b_height b_depth].
  assert (K : forall l w h r, reach_loop l w h = Ok r -> w <= b_width (m_core m) -> h <= b_height (m_core m) ->
     (forall t x y, In t l -> reaches t x y -> x <= b_width (m_core m) /\ y <= b_height (m_core m)) ->
     fst r <= b_width (m_core m) /\ snd r <= b_height (m_core m)).
  { clear. induction l as [|t l IH]; intros w h r H A B T; cbn [reach_loop] in H.
    - inversion H; subst. cbn [fst snd]. auto.
    - destruct (turn_reach t) as [[a c]| | |] eqn:R; try discriminate. cbn [bind fst snd] in H.
      assert (RR : reaches t a c).
      { unfold turn_reach in R. unfold reaches, where_it_is.
        destruct (t_additional t) as [[|[ax ay] ps]|]; try discriminate.
        - destruct (t_size t) as [[sw sh]|]; [|discriminate]. inversion R; subst. exists ax, ay, sw, sh. repeat split; reflexivity.
        - destruct (t_size t) as [[sw sh]|]; [|discriminate]. destruct (t_centre t) as [cx cy]. cbn [fst snd] in R.
          inversion R; subst. exists cx, cy, sw, sh. repeat split; reflexivity. }
      destruct (T t a c (or_introl eq_refl) RR) as (X & Y).
      apply (IH _ _ _ H); [apply cmax_lub; assumption|apply cmax_lub; assumption|].
      intros u x y I0 R0. apply (T u x y); [right; exact I0|exact R0]. }
  destruct (K _ _ _ _ E PW PH T) as (A & B).
  split.
  - pose proof (cmax_l (b_width (m_core m)) (cmax (fst r) 0)).
    pose proof (cmax_lub (b_width (m_core m)) (cmax (fst r) 0) (b_width (m_core m)) (Qle_refl _) (cmax_lub _ _ _ A PW)). lra.
  - pose proof (cmax_l (b_height (m_core m)) (cmax (snd r) 0)).
    pose proof (cmax_lub (b_height (m_core m)) (cmax (snd r) 0) (b_height (m_core m)) (Qle_refl _) (cmax_lub _ _ _ B PH)). lra.
Qed.

(** The box never changes once asked for… *)
Theorem C166_settles : forall m b m',
  maximum_dimensions m = Ok (b, m') -> maximum_dimensions m' = Ok (b, m').
Proof.
  intros m b m' H. unfold maximum_dimensions in H. destruct (m_memory m) as [k|] eqn:E.
  - inversion H; subst. unfold maximum_dimensions. rewrite E. reflexivity.
  - destruct (coil_dimensions (m_coil m)) as [c| | |]; try discriminate. cbn [bind] in H. inversion H; subst. reflexivity.
Qed.

(** …not even when the core or the coil does: whatever replaces them, the magnetic
    answers with the box of the old ones. *)
Theorem C166_stale_refuted : forall m b m' core coil l rotation,
  maximum_dimensions m = Ok (b, m') ->
  magnetic_fits (with_coil (with_core m' core) coil) l rotation
  = Ok (fits b l rotation, with_coil (with_core m' core) coil).
Proof.
  intros m b m' core coil l rotation H. pose proof (C166_settles _ _ _ H) as S.
  unfold maximum_dimensions in S. destruct (m_memory m') as [k|] eqn:E.
  - inversion S; subst. unfold magnetic_fits, maximum_dimensions, with_coil, with_core. cbn [m_memory m_core m_coil]. rewrite E. reflexivity.
  - exfalso. destruct (coil_dimensions (m_coil m')) as [c| | |]; try discriminate. cbn [bind] in S. inversion S as [[A B]].
    apply (f_equal m_memory) in B. cbn [m_memory] in B. congruence.
Qed.

(** The scores of volume, area and height are those of the box, and a magnetic that
    is larger in every direction has the worse score in all three. *)
Theorem C166_scores_grow : forall m n b c m' n',
  maximum_dimensions m = Ok (b, m') -> maximum_dimensions n = Ok (c, n') -> smaller b c ->
  0 <= b_width b -> 0 <= b_height b -> 0 <= b_depth b ->
  exists v v' a a' h h',
    volume_filter m = Ok (v, m') /\ volume_filter n = Ok (v', n') /\ v <= v' /\
    area_filter m = Ok (a, m') /\ area_filter n = Ok (a', n') /\ a <= a' /\
    height_filter m = Ok (h, m') /\ height_filter n = Ok (h', n') /\ h <= h' /\ v == a * h.
Proof.
  intros m n b c m' n' M N (A & B & C) PW PH PD. unfold volume_filter, area_filter, height_filter.
  rewrite M, N. cbn [bind fst snd].
  exists (b_width b * b_height b * b_depth b), (b_width c * b_height c * b_depth c),
         (b_width b * b_depth b), (b_width c * b_depth c), (b_height b), (b_height c).
  assert (AB : b_width b * b_height b <= b_width c * b_height c) by nra.
  assert (AD : b_width b * b_depth b <= b_width c * b_depth c) by nra.
  assert (P : 0 <= b_width b * b_height b) by nra.
  repeat split; try reflexivity; try nra. 
Qed.

(** ** Witnesses *)

(** A part of 30 by 20 by 10 in a volume of 10 by 30 by 25: only when turned. *)
Example C165_witness :
  fits (mkBox 30 20 10) (mkLimits (Some 10) (Some 30) (Some 25)) false = false /\
  fits (mkBox 30 20 10) (mkLimits (Some 10) (Some 30) (Some 25)) true = true /\
  fits (mkBox 30 20 10) (mkLimits (Some 9) (Some 30) (Some 25)) true = false /\
  fits (mkBox 30 20 10) (mkLimits None (Some 12) None) true = true.
Proof. repeat split. Qed.

(** A toroid of 20 mm outer diameter and 5 mm height, wound with 1 mm wire. *)
Definition ring : magnetic :=
  mkMagnetic (mkBox 20 20 5)
             (mkCoil (mkBobbin ROUND None 0 0 (5) 360)
                     (Some [mkTurn (9 # 2, 0) (Some [(21 # 2, 0)]) (Some (1, 1));
                            mkTurn (0, 9 # 2) (Some [(0, 21 # 2)]) (Some (1, 1))]))
             None.

(** Its turns reach 11 mm to each side; the box says it is 20 mm wide. *)
Example C166_witness :
  exists b m', maximum_dimensions ring = Ok (b, m') /\ b_width b == 20 /\ b_height b == 20 /\ b_depth b == 11 /\
  reaches (mkTurn (9 # 2, 0) (Some [(21 # 2, 0)]) (Some (1, 1))) 11 (1 # 2) /\
  ~ covers b 11 (1 # 2) /\
  magnetic_fits ring (mkLimits (Some 20) (Some 20) (Some 11)) false = Ok (true, m').
Proof.
  eexists _, _. split; [vm_compute; reflexivity|]. split; [reflexivity|]. split; [reflexivity|]. split; [reflexivity|].
  split. { exists (21 # 2), 0, 1, 1. repeat split; reflexivity. }
  split. { intros (A & B). vm_compute in A. congruence. }
  vm_compute. reflexivity.
Qed.

Print Assumptions C165_turned.
Print Assumptions C165_monotone.
Print Assumptions C166_turns_partial.
Print Assumptions C166_turns_refuted.
Print Assumptions C166_stale_refuted.
Print Assumptions C166_scores_grow.
