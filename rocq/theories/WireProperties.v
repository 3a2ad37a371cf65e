(** Properties of wires: C141 (effective conducting area), C142 (parallels needed),
    C143 (litz bundles), C144 (layers of the coating and cutting to a section). *)
From Coq Require Import Reals List String ZArith Lia Lra Psatz.
From Verif Require Import Base WireModel.
Import ListNotations.
Local Open Scope outcome_scope.
Local Open Scope R_scope.

(** * Vocabulary *)
(** The wire counts [n] conductors; a missing count is one except for litz. *)
Definition counts (w : wire) (n : nat) : Prop :=
  (1 <= n)%nat /\ (conductors w = Some n \/ (conductors w = None /\ n = 1%nat /\ type w <> Litz)).
(** Round or litz wire whose conductors or strands have diameter [d]. *)
Definition round_conductors (w : wire) (n : nat) (d : R) : Prop :=
  counts w n /\ 0 < d < dbl_max
  /\ ((type w = Litz /\ strand w = Some d) \/ (type w = RoundWire /\ diameter w = Some d)).
(** Rectangular, foil or planar wire of [x] by [y]. *)
Definition flat_conductors (w : wire) (n : nat) (x y : R) : Prop :=
  counts w n /\ 0 < x < dbl_max /\ 0 < y < dbl_max /\ width w = Some x /\ height w = Some y
  /\ (type w = Rectangular \/ type w = Foil \/ type w = Planar).
(** The material conducts at this temperature. *)
Definition conducts (w : wire) (m : material) (t : R) : Prop :=
  material_of w = Some m /\ 0 < resistivity m t /\ 0 < permeability m.
(** [s] is the depth at which the current has decayed at this frequency. *)
Definition depth_at (m : material) (f t s : R) : Prop :=
  0 < s /\ s ^ 2 * (PI * f * mu0 * permeability m) = resistivity m t.

(** * Lemmas *)
Lemma mu0_pos : 0 < mu0. Proof. unfold mu0. lra. Qed.
Lemma dbl_max_big : 0 < dbl_max.
Proof.
  unfold dbl_max. apply Rmult_lt_0_compat; [|apply pow_lt; lra].
  assert (/ 2 ^ 52 <= 1); [|lra]. rewrite <- Rinv_1. apply Rinv_le_contravar; [lra|]. apply pow_R1_Rle. lra.
Qed.

Lemma den_pos : forall m f, 0 < f -> 0 < permeability m -> 0 < PI * f * mu0 * permeability m.
Proof.
  intros m f F P. apply Rmult_lt_0_compat; [|exact P]. apply Rmult_lt_0_compat; [|exact mu0_pos].
  apply Rmult_lt_0_compat; [exact PI_RGT_0 | exact F].
Qed.

Lemma depth_unique : forall m f t s1 s2, 0 < f -> 0 < permeability m ->
  depth_at m f t s1 -> depth_at m f t s2 -> s1 = s2.
Proof.
  intros m f t s1 s2 F P (S1 & E1) (S2 & E2). pose proof (den_pos m f F P) as D.
  assert (E : s1 ^ 2 = s2 ^ 2) by (apply (Rmult_eq_reg_r (PI * f * mu0 * permeability m)); lra).
  nra.
Qed.

Lemma skin_some : forall m f t, 0 < f -> 0 < resistivity m t -> 0 < permeability m ->
  exists s, skin_depth m f t = Some s /\ depth_at m f t s.
Proof.
  intros m f t F R P. pose proof (den_pos m f F P) as D. unfold skin_depth.
  destruct (Rle_dec f 0); [lra|].
  assert (Q : 0 < resistivity m t / (PI * f * mu0 * permeability m)) by (apply Rdiv_lt_0_compat; assumption).
  destruct (Rlt_dec _ 0) as [N|_]; [lra|].
  eexists. split; [reflexivity|]. split; [apply sqrt_lt_R0, Q|].
  rewrite pow2_sqrt by lra. field. repeat split; try lra; try (pose proof PI_RGT_0; lra). pose proof mu0_pos; lra.
Qed.

Lemma skin_deep : forall m f t, f <= 0 -> skin_depth m f t = Some dbl_max.
Proof. intros m f t F. unfold skin_depth. destruct (Rle_dec f 0); [reflexivity | lra]. Qed.

Lemma count_of : forall w n, counts w n -> count w = Ok n.
Proof.
  intros w n (_ & [E|(E & -> & T)]); unfold count; rewrite E; [reflexivity|].
  destruct (type w); try reflexivity. congruence.
Qed.

Lemma counts_pos : forall w n, counts w n -> 1 <= INR n.
Proof. intros w n (H & _). apply le_INR in H. simpl in H. exact H. Qed.

(** The area of the catalogue for rectangular conductors is within a half of the
    product of the sides. *)
Lemma rectangular_share : forall p x y, 0 < x -> 0 < y ->
  exists c, 1 / 2 <= c <= 3 / 2 /\ rectangular_area p x y = c * (x * y).
Proof.
  intros p x y X Y. pose proof (Rmult_lt_0_compat x y X Y) as XY. unfold rectangular_area. cbv zeta.
  destruct p as [p|]; [|exists 1; split; lra].
  destruct (Rle_dec _ 0); [exists 1; split; lra|].
  destruct (Rlt_dec _ (x * y / 2)); [exists 1; split; lra|].
  destruct (Rlt_dec (3 / 2) _); [exists 1; split; lra|].
  destruct (Rlt_dec _ (1 / 2)); [exists 1; split; lra|].
  exists (p (x * y)). split; lra.
Qed.

Section Area.
Variable p : option (R -> R).

Lemma round_area : forall w n d, round_conductors w n d ->
  conducting_area p w = Ok (PI * (d / 2) ^ 2 * INR n).
Proof.
  intros w n d (C & D & [(T & S)|(T & S)]); unfold conducting_area, strand_of;
    rewrite (count_of w n C), T, S; reflexivity.
Qed.

Lemma round_effective : forall w n d m t f, round_conductors w n d -> conducts w m t ->
  effective_area p w f t =
    (if Req_EM_T f 0 then Ok (PI * (d / 2) ^ 2 * INR n)
     else bind match skin_depth m f t with
               | None => Ok (PI * (d / 2) ^ 2 * INR n)
               | Some s => if Rlt_dec s (d / 2)
                           then Ok (PI * (d / 2) ^ 2 * INR n - PI * (d / 2 - s) ^ 2 * INR n)
                           else Ok (PI * (d / 2) ^ 2 * INR n)
               end (fun e => if Rlt_dec e 0 then Throw "effectiveConductingArea cannot be negative" else Ok e)).
Proof.
  intros w n d m t f H (M & _). pose proof (round_area w n d H) as A. destruct H as (C & D & K).
  unfold effective_area, resolve_material. rewrite M. cbn [required bind].
  assert (S : smallest w = Ok d) by
    (destruct K as [(T & S)|(T & S)]; unfold smallest, strand_of; rewrite T, S; reflexivity).
  rewrite S. cbn [bind]. rewrite A. cbn [bind]. destruct (Req_EM_T f 0); [reflexivity|].
  rewrite (count_of w n C). cbn [bind].
  destruct (skin_depth m f t) as [s|]; [|reflexivity]. destruct (Rlt_dec s (d / 2)); [|reflexivity].
  assert (I : idle_area w n (PI * (d / 2) ^ 2 * INR n) s = Ok (PI * (d / 2 - s) ^ 2 * INR n)) by
    (destruct K as [(T & E)|(T & E)]; unfold idle_area, strand_of; rewrite T, E; reflexivity).
  rewrite I. reflexivity.
Qed.

(** What the effective area of round conductors is. *)
Lemma round_value : forall w n d m t f, round_conductors w n d -> conducts w m t ->
  (f <= 0 -> effective_area p w f t = Ok (PI * (d / 2) ^ 2 * INR n))
  /\ (forall s, 0 < f -> depth_at m f t s ->
        effective_area p w f t = Ok (if Rlt_dec s (d / 2) then INR n * (PI * s * (d - s)) else PI * (d / 2) ^ 2 * INR n)).
Proof.
  intros w n d m t f H K. pose proof (round_effective w n d m t f H K) as E.
  pose proof (counts_pos w n (proj1 H)) as N. destruct H as (C & D & _). destruct K as (M & R & P).
  pose proof PI_RGT_0 as PI0.
  assert (A : 0 <= PI * (d / 2) ^ 2 * INR n).
  { apply Rmult_le_pos; [|lra]. apply Rmult_le_pos; [lra|]. apply pow2_ge_0. }
  split; [intro F | intros s F Ds]; rewrite E; clear E.
  - destruct (Req_EM_T f 0); [reflexivity|]. rewrite (skin_deep m f t F).
    destruct (Rlt_dec dbl_max (d / 2)); [lra|]. cbn [bind].
    destruct (Rlt_dec _ 0); [lra | reflexivity].
  - destruct (Req_EM_T f 0); [lra|]. destruct (skin_some m f t F R P) as (s' & E & Ds').
    rewrite E, (depth_unique m f t s' s F P Ds' Ds). destruct Ds as (S0 & _).
    destruct (Rlt_dec s (d / 2)); cbn [bind].
    + replace (PI * (d / 2) ^ 2 * INR n - PI * (d / 2 - s) ^ 2 * INR n) with (INR n * (PI * s * (d - s))) by field.
      destruct (Rlt_dec _ 0) as [B|_]; [exfalso|reflexivity].
      assert (0 <= INR n * (PI * s * (d - s))); [|lra].
      apply Rmult_le_pos; [lra|]. apply Rmult_le_pos; [|lra]. apply Rmult_le_pos; lra.
    + destruct (Rlt_dec _ 0); [lra | reflexivity].
Qed.

Lemma flat_area : forall w n x y, flat_conductors w n x y ->
  exists c, 1 / 2 <= c <= 3 / 2 /\ (type w <> Rectangular -> c = 1)
    /\ conducting_area p w = Ok (c * (x * y) * INR n).
Proof.
  intros w n x y (C & X & Y & Ex & Ey & T). unfold conducting_area. rewrite (count_of w n C). cbn [bind].
  destruct T as [T|[T|T]]; rewrite T, Ex, Ey; cbn [required bind].
  - destruct (rectangular_share p x y ltac:(lra) ltac:(lra)) as (c & B & ->).
    exists c. split; [exact B|]. split; [congruence | reflexivity].
  - exists 1. split; [lra|]. split; [reflexivity|]. f_equal. ring.
  - exists 1. split; [lra|]. split; [reflexivity|]. f_equal. ring.
Qed.

Lemma flat_effective : forall w n x y m t f a, flat_conductors w n x y -> conducts w m t ->
  conducting_area p w = Ok a ->
  effective_area p w f t =
    (if Req_EM_T f 0 then Ok a
     else bind match skin_depth m f t with
               | None => Ok a
               | Some s => if Rlt_dec s (Rmin x y / 2)
                           then Ok (a - (x - s * 2) * (y - s * 2) * INR n * (a / (x * y)))
                           else Ok a
               end (fun e => if Rlt_dec e 0 then Throw "effectiveConductingArea cannot be negative" else Ok e)).
Proof.
  intros w n x y m t f a (C & X & Y & Ex & Ey & T) (M & _) A.
  unfold effective_area, resolve_material. rewrite M. cbn [required bind].
  assert (S : smallest w = Ok (Rmin x y)).
  { unfold smallest. destruct T as [T|[T|T]]; rewrite T, Ex, Ey; cbn [required bind]; f_equal;
      unfold Rmin; destruct (Rlt_dec y x), (Rle_dec x y); lra. }
  rewrite S. cbn [bind]. rewrite A. cbn [bind]. destruct (Req_EM_T f 0); [reflexivity|].
  rewrite (count_of w n C). cbn [bind].
  destruct (skin_depth m f t) as [s|]; [|reflexivity]. destruct (Rlt_dec s (Rmin x y / 2)); [|reflexivity].
  assert (I : idle_area w n a s = Ok ((x - s * 2) * (y - s * 2) * INR n * (a / (x * y)))) by
    (unfold idle_area; destruct T as [T|[T|T]]; rewrite T, Ex, Ey; reflexivity).
  rewrite I. reflexivity.
Qed.

(** What the effective area of one flat conductor is. *)
Lemma flat_value : forall w x y m t f c, flat_conductors w 1 x y -> conducts w m t ->
  1 / 2 <= c <= 3 / 2 -> conducting_area p w = Ok (c * (x * y) * INR 1) ->
  (f <= 0 -> effective_area p w f t = Ok (c * (x * y)))
  /\ (forall s, 0 < f -> depth_at m f t s ->
        effective_area p w f t = Ok (if Rlt_dec s (Rmin x y / 2) then c * (2 * s * (x + y - 2 * s)) else c * (x * y))).
Proof.
  intros w x y m t f c H K B A. change (INR 1) with 1 in A. rewrite Rmult_1_r in A.
  pose proof (flat_effective w 1 x y m t f _ H K A) as E. change (INR 1) with 1 in E.
  destruct H as (C & X & Y & _). destruct K as (M & R & P).
  assert (XY : 0 < x * y) by (apply Rmult_lt_0_compat; lra).
  assert (G : 0 < c * (x * y)) by (apply Rmult_lt_0_compat; lra).
  assert (Mx : Rmin x y <= x) by apply Rmin_l. assert (My : Rmin x y <= y) by apply Rmin_r.
  split; [intro F | intros s F Ds]; rewrite E; clear E.
  - destruct (Req_EM_T f 0); [reflexivity|]. rewrite (skin_deep m f t F).
    destruct (Rlt_dec dbl_max (Rmin x y / 2)); [pose proof dbl_max_big; lra|]. cbn [bind].
    destruct (Rlt_dec _ 0); [lra | reflexivity].
  - destruct (Req_EM_T f 0); [lra|]. destruct (skin_some m f t F R P) as (s' & E & Ds').
    rewrite E, (depth_unique m f t s' s F P Ds' Ds). destruct Ds as (S0 & _).
    destruct (Rlt_dec s (Rmin x y / 2)); cbn [bind].
    + replace (c * (x * y) - (x - s * 2) * (y - s * 2) * 1 * (c * (x * y) / (x * y)))
        with (c * (2 * s * (x + y - 2 * s))) by (field; lra).
      destruct (Rlt_dec _ 0) as [N|_]; [exfalso|reflexivity].
      assert (0 <= c * (2 * s * (x + y - 2 * s))); [|lra].
      apply Rmult_le_pos; [lra|]. apply Rmult_le_pos; lra.
    + destruct (Rlt_dec _ 0); [lra | reflexivity].
Qed.
End Area.

(** * C141 *)
(** C141.  The effective area of [n] round conductors is the area no deeper than
    the skin depth: the whole area while the depth reaches the middle (or there is
    no frequency), and else [n] rings of that depth. *)
Theorem C141_round_conductors : forall p w n d m t f, round_conductors w n d -> conducts w m t ->
  exists a, conducting_area p w = Ok a /\ a = INR n * (PI * d ^ 2 / 4)
    /\ (f <= 0 -> effective_area p w f t = Ok a)
    /\ (forall s, 0 < f -> depth_at m f t s -> d <= 2 * s -> effective_area p w f t = Ok a)
    /\ (forall s, 0 < f -> depth_at m f t s -> 2 * s < d ->
          effective_area p w f t = Ok (INR n * (PI * (d / 2) ^ 2 - PI * (d / 2 - s) ^ 2))).
Proof.
  intros p w n d m t f H K. destruct (round_value p w n d m t f H K) as (V0 & V).
  exists (PI * (d / 2) ^ 2 * INR n). split; [apply round_area, H|]. split; [field|]. split; [exact V0|].
  split; intros s F D L; rewrite (V s F D); destruct (Rlt_dec s (d / 2)); try lra; f_equal; field.
Qed.

(** The same for one rectangular, foil or planar conductor of [x] by [y]: the
    frame of that depth, times the share of the catalogue for rounded corners
    (one unless the wire is rectangular). *)
Theorem C141_flat_conductor : forall p w x y m t f, flat_conductors w 1 x y -> conducts w m t ->
  exists c, 1 / 2 <= c <= 3 / 2 /\ (type w <> Rectangular -> c = 1)
    /\ conducting_area p w = Ok (c * (x * y))
    /\ (f <= 0 -> effective_area p w f t = Ok (c * (x * y)))
    /\ (forall s, 0 < f -> depth_at m f t s -> x <= 2 * s \/ y <= 2 * s ->
          effective_area p w f t = Ok (c * (x * y)))
    /\ (forall s, 0 < f -> depth_at m f t s -> 2 * s < x -> 2 * s < y ->
          effective_area p w f t = Ok (c * (x * y - (x - 2 * s) * (y - 2 * s)))).
Proof.
  intros p w x y m t f H K. destruct (flat_area p w 1 x y H) as (c & B & C1 & A).
  destruct (flat_value p w x y m t f c H K B A) as (V0 & V).
  exists c. split; [exact B|]. split; [exact C1|]. split; [rewrite A; f_equal; simpl; ring|]. split; [exact V0|].
  assert (Mx : Rmin x y <= x) by apply Rmin_l. assert (My : Rmin x y <= y) by apply Rmin_r.
  split.
  - intros s F D L. rewrite (V s F D). destruct (Rlt_dec s (Rmin x y / 2)); [lra | reflexivity].
  - intros s F D X Y. rewrite (V s F D). destruct (Rlt_dec s (Rmin x y / 2)) as [_|N].
    + f_equal. ring.
    + exfalso. apply N. unfold Rmin. destruct (Rle_dec x y); lra.
Qed.

(** Wires for which the above applies. *)
Definition usual (w : wire) : Prop :=
  (exists n d, round_conductors w n d) \/ (exists x y, flat_conductors w 1 x y).

(** The effective area is a quantity [g] of the skin depth that is positive, grows
    with the depth and is the whole area from some depth on. *)
Lemma effective_shape : forall p w, usual w -> exists area (g : R -> R),
  conducting_area p w = Ok area /\ 0 < area
  /\ (forall s, 0 < s -> 0 < g s <= area)
  /\ (forall s s', 0 < s -> s <= s' -> g s <= g s')
  /\ (forall m t f, conducts w m t ->
        (f <= 0 -> effective_area p w f t = Ok area)
        /\ (forall s, 0 < f -> depth_at m f t s -> effective_area p w f t = Ok (g s))).
Proof.
  intros p w [(n & d & H)|(x & y & H)].
  - pose proof (counts_pos w n (proj1 H)) as N. pose proof PI_RGT_0 as P. pose proof H as (_ & D & _).
    assert (NP : 0 < INR n * PI) by (apply Rmult_lt_0_compat; lra).
    assert (A : 0 < PI * (d / 2) ^ 2 * INR n).
    { apply Rmult_lt_0_compat; [|lra]. apply Rmult_lt_0_compat; [exact P|]. apply pow_lt. lra. }
    exists (PI * (d / 2) ^ 2 * INR n),
      (fun s => if Rlt_dec s (d / 2) then INR n * (PI * s * (d - s)) else PI * (d / 2) ^ 2 * INR n).
    split; [apply round_area, H|]. split; [exact A|].
    assert (Q : forall s, 0 < s -> s < d / 2 ->
              0 < INR n * (PI * s * (d - s)) <= PI * (d / 2) ^ 2 * INR n).
    { intros s S L. split.
      - replace (INR n * (PI * s * (d - s))) with (INR n * PI * (s * (d - s))) by ring.
        apply Rmult_lt_0_compat; [exact NP|]. apply Rmult_lt_0_compat; lra.
      - assert (0 <= INR n * PI * (d / 2 - s) ^ 2); [|nra].
        apply Rmult_le_pos; [lra | apply pow2_ge_0]. }
    split; [|split].
    + intros s S. destruct (Rlt_dec s (d / 2)); [apply Q; assumption | lra].
    + intros s s' S L. destruct (Rlt_dec s (d / 2)) as [Ls|], (Rlt_dec s' (d / 2)) as [Ls'|]; try lra.
      * replace (INR n * (PI * s * (d - s))) with (INR n * PI * (s * (d - s))) by ring.
        replace (INR n * (PI * s' * (d - s'))) with (INR n * PI * (s' * (d - s'))) by ring.
        apply Rmult_le_compat_l; [lra|]. nra.
      * apply Q; assumption.
    + intros m t f K. exact (round_value p w n d m t f H K).
  - destruct (flat_area p w 1 x y H) as (c & B & C1 & A). pose proof H as (_ & X & Y & _).
    assert (Mx : Rmin x y <= x) by apply Rmin_l. assert (My : Rmin x y <= y) by apply Rmin_r.
    assert (XY : 0 < x * y) by (apply Rmult_lt_0_compat; lra).
    exists (c * (x * y)), (fun s => if Rlt_dec s (Rmin x y / 2) then c * (2 * s * (x + y - 2 * s)) else c * (x * y)).
    split; [rewrite A; f_equal; simpl; ring|]. split; [apply Rmult_lt_0_compat; lra|].
    assert (Q : forall s, 0 < s -> s < Rmin x y / 2 -> 0 < c * (2 * s * (x + y - 2 * s)) <= c * (x * y)).
    { intros s S L. split.
      - apply Rmult_lt_0_compat; [lra|]. apply Rmult_lt_0_compat; lra.
      - apply Rmult_le_compat_l; [lra|].
        assert (0 <= (x - 2 * s) * (y - 2 * s)) by (apply Rmult_le_pos; lra). lra. }
    split; [|split].
    + intros s S. destruct (Rlt_dec s (Rmin x y / 2)); [apply Q; assumption|].
      split; [apply Rmult_lt_0_compat; lra | lra].
    + intros s s' S L. destruct (Rlt_dec s (Rmin x y / 2)) as [Ls|], (Rlt_dec s' (Rmin x y / 2)) as [Ls'|]; try lra.
      * apply Rmult_le_compat_l; [lra|].
        assert (0 <= (s' - s) * (x + y - 2 * s - 2 * s')) by (apply Rmult_le_pos; lra). nra.
      * apply Q; assumption.
    + intros m t f K. exact (flat_value p w x y m t f c H K B A).
Qed.

(** C141.  It is always given, positive and at most the conducting area. *)
Theorem C141_bounds : forall p w m t f, usual w -> conducts w m t ->
  exists area a, conducting_area p w = Ok area /\ effective_area p w f t = Ok a /\ 0 < a <= area.
Proof.
  intros p w m t f U K. destruct (effective_shape p w U) as (area & g & A & P & B & _ & V).
  destruct (V m t f K) as (V0 & V1). destruct (Rle_lt_dec f 0) as [F|F].
  - exists area, area. split; [exact A|]. split; [exact (V0 F) | lra].
  - destruct K as (M & R & Pe). destruct (skin_some m f t F R Pe) as (s & _ & D).
    exists area, (g s). split; [exact A|]. split; [exact (V1 s F D) | exact (B s (proj1 D))].
Qed.

(** C141.  It never grows with the frequency. *)
Theorem C141_frequency : forall p w m t f f' a a', usual w -> conducts w m t -> f <= f' ->
  effective_area p w f t = Ok a -> effective_area p w f' t = Ok a' -> a' <= a.
Proof.
  intros p w m t f f' a a' U K L E E'. destruct (effective_shape p w U) as (area & g & A & P & B & G & V).
  destruct (V m t f K) as (V0 & V1). destruct (V m t f' K) as (V0' & V1'). destruct K as (M & R & Pe).
  destruct (Rle_lt_dec f' 0) as [F'|F'].
  - rewrite (V0' F') in E'. rewrite V0 in E by lra. injection E as <-. injection E' as <-. lra.
  - destruct (skin_some m f' t F' R Pe) as (s' & _ & D'). rewrite (V1' s' F' D') in E'. injection E' as <-.
    destruct (Rle_lt_dec f 0) as [F|F].
    + rewrite (V0 F) in E. injection E as <-. apply B, D'.
    + destruct (skin_some m f t F R Pe) as (s & _ & D). rewrite (V1 s F D) in E. injection E as <-.
      apply G; [apply D'|]. destruct D as (S & Ds), D' as (S' & Ds').
      pose proof (den_pos m f F Pe) as Df. destruct (Rle_lt_dec s' s) as [|C]; [assumption|exfalso].
      assert (PI * f * mu0 * permeability m <= PI * f' * mu0 * permeability m).
      { apply Rmult_le_compat_r; [lra|]. apply Rmult_le_compat_r; [pose proof mu0_pos; lra|].
        apply Rmult_le_compat_l; [pose proof PI_RGT_0; lra | exact L]. }
      assert (s ^ 2 < s' ^ 2) by nra.
      assert (s ^ 2 * (PI * f * mu0 * permeability m) < s' ^ 2 * (PI * f' * mu0 * permeability m)); [|lra].
      apply Rlt_le_trans with (s' ^ 2 * (PI * f * mu0 * permeability m)).
      * apply Rmult_lt_compat_r; assumption.
      * apply Rmult_le_compat_l; [apply pow2_ge_0 | assumption].
Qed.

(** C141.  When the resistivity grows with the temperature, a hotter wire never
    conducts through less area. *)
Theorem C141_temperature : forall p w m t t' f a a', usual w -> conducts w m t ->
  0 <= reference_value m -> 0 <= coefficient m -> t <= t' ->
  effective_area p w f t = Ok a -> effective_area p w f t' = Ok a' -> a <= a'.
Proof.
  intros p w m t t' f a a' U K R0 C0 L E E'.
  assert (RL : resistivity m t <= resistivity m t').
  { unfold resistivity. apply Rmult_le_compat_l; [exact R0|].
    assert (0 <= coefficient m * (t' - t)) by (apply Rmult_le_pos; lra). lra. }
  assert (K' : conducts w m t') by (destruct K as (M & R & Pe); repeat split; auto; lra).
  destruct (effective_shape p w U) as (area & g & A & P & B & G & V).
  destruct (V m t f K) as (V0 & V1). destruct (V m t' f K') as (V0' & V1').
  destruct K as (M & R & Pe), K' as (_ & R' & _).
  destruct (Rle_lt_dec f 0) as [F|F].
  - rewrite (V0 F) in E. rewrite (V0' F) in E'. injection E as <-. injection E' as <-. lra.
  - destruct (skin_some m f t F R Pe) as (s & _ & D). destruct (skin_some m f t' F R' Pe) as (s' & _ & D').
    rewrite (V1 s F D) in E. rewrite (V1' s' F D') in E'. injection E as <-. injection E' as <-.
    apply G; [apply D|]. destruct D as (S & Ds), D' as (S' & Ds').
    pose proof (den_pos m f F Pe) as Df. destruct (Rle_lt_dec s s') as [|C]; [assumption|exfalso].
    assert (s' ^ 2 < s ^ 2) by nra.
    assert (s' ^ 2 * (PI * f * mu0 * permeability m) < s ^ 2 * (PI * f * mu0 * permeability m)); [|lra].
    apply Rmult_lt_compat_r; assumption.
Qed.

(** C141.  Wires without material are refused, whatever they are. *)
Theorem C141_no_material : forall p w f t, material_of w = None -> exists e, effective_area p w f t = Throw e.
Proof. intros p w f t E. unfold effective_area, resolve_material. rewrite E. eexists. reflexivity. Qed.

(** Refuted for flat wires of several conductors: the middle of each conductor is
    taken away once per conductor and again with the share of the area, so that
    from some frequency on every such wire is refused. *)
Theorem C141_flat_conductors_refuted : forall p w n x y m t,
  flat_conductors w n x y -> (2 <= n)%nat -> conducts w m t ->
  exists f0, 0 < f0 /\ forall f, f0 <= f -> exists e, effective_area p w f t = Throw e.
Proof.
  intros p w n x y m t H N2 K. destruct (flat_area p w n x y H) as (c & B & _ & A).
  pose proof (flat_effective p w n x y m t) as FE. pose proof H as (C & X & Y & _). pose proof K as (M & R & Pe).
  assert (Nn : 2 <= INR n) by (apply le_INR in N2; simpl in N2; lra).
  pose (u := Rmin x y). assert (U : 0 < u) by (unfold u, Rmin; destruct (Rle_dec x y); lra).
  assert (Mx : u <= x) by apply Rmin_l. assert (My : u <= y) by apply Rmin_r.
  (* at a sixteenth of the smallest side the idle share is above a half *)
  pose proof mu0_pos as U0. pose proof PI_RGT_0 as P0.
  pose (k := PI * mu0 * permeability m). assert (Kp : 0 < k).
  { unfold k. apply Rmult_lt_0_compat; [apply Rmult_lt_0_compat|]; assumption. }
  pose (f0 := resistivity m t / ((u / 16) ^ 2 * k)).
  assert (U2 : 0 < (u / 16) ^ 2) by (apply pow_lt; lra).
  assert (F0 : 0 < f0) by (unfold f0; apply Rdiv_lt_0_compat; [exact R | apply Rmult_lt_0_compat; assumption]).
  exists f0. split; [exact F0|]. intros f L.
  destruct (skin_some m f t ltac:(lra) R Pe) as (s & Es & (S & Ds)).
  assert (Sm : s <= u / 16).
  { destruct (Rle_lt_dec s (u / 16)) as [|G]; [assumption|exfalso].
    assert (E0 : (u / 16) ^ 2 * (f0 * k) = resistivity m t) by (unfold f0; field; split; lra).
    assert (E1 : s ^ 2 * (f * k) = resistivity m t) by (rewrite <- Ds; unfold k; ring).
    assert (f0 * k <= f * k) by (apply Rmult_le_compat_r; lra).
    assert (0 < f0 * k) by (apply Rmult_lt_0_compat; assumption).
    assert ((u / 16) ^ 2 < s ^ 2) by nra. nra. }
  assert (XY : 0 < x * y) by (apply Rmult_lt_0_compat; lra).
  rewrite (FE f _ H K A), Es. destruct (Req_EM_T f 0); [lra|].
  fold u. destruct (Rlt_dec s (u / 2)) as [_|Bad]; [|lra]. cbn [bind].
  replace (c * (x * y) * INR n - (x - s * 2) * (y - s * 2) * INR n * (c * (x * y) * INR n / (x * y)))
    with (c * INR n * (x * y - INR n * ((x - s * 2) * (y - s * 2)))) by (field; lra).
  destruct (Rlt_dec _ 0) as [_|Bad]; [eexists; reflexivity|exfalso]. apply Bad.
  assert (7 / 8 * x <= x - s * 2) by lra. assert (7 / 8 * y <= y - s * 2) by lra.
  assert (49 / 64 * (x * y) <= (x - s * 2) * (y - s * 2)) by nra.
  assert (2 * (49 / 64 * (x * y)) <= INR n * ((x - s * 2) * (y - s * 2))) by nra.
  assert (0 < c * INR n) by (apply Rmult_lt_0_compat; lra). nra.
Qed.

(** Copper, close to the figures of the catalogue. *)
Definition copper : material := mkMaterial (168 / 10000000000) (393 / 100000) 20 1.
Definition strands : wire := mkWire Litz (Some 100%nat) None None None (Some (1 / 10000)) (Some copper).
Definition bare_foil : wire := mkWire Foil None None (Some (1 / 10000)) (Some (1 / 100)) None (Some copper).
Definition two_foils : wire := mkWire Foil (Some 2%nat) None (Some (1 / 10000)) (Some (1 / 100)) None (Some copper).

Lemma dbl_max_ge_1 : 1 <= dbl_max.
Proof.
  unfold dbl_max. assert (1 <= 2 ^ 1023) by (apply pow_R1_Rle; lra).
  assert (/ 2 ^ 52 <= 1). { rewrite <- Rinv_1. apply Rinv_le_contravar; [lra|]. apply pow_R1_Rle. lra. }
  nra.
Qed.
Example C141_witness : round_conductors strands 100 (1 / 10000) /\ conducts strands copper 100
  /\ flat_conductors bare_foil 1 (1 / 10000) (1 / 100) /\ conducts bare_foil copper 100
  /\ flat_conductors two_foils 2 (1 / 10000) (1 / 100) /\ conducts two_foils copper 100
  /\ 0 <= coefficient copper /\ depth_at copper (168 / 10000000000 / (PI * mu0)) 20 1.
Proof.
  pose proof dbl_max_ge_1 as D. unfold round_conductors, flat_conductors, conducts, counts, resistivity.
  repeat split; cbn [type conductors diameter width height strand material_of strands bare_foil two_foils copper
                     reference_value coefficient reference_temperature permeability]; try lra; try lia; auto.
  - right. repeat split. discriminate.
  - unfold depth_at, resistivity. cbn. pose proof mu0_pos; pose proof PI_RGT_0. field; lra.
Qed.

(** * C142 *)
(** [n] wires in parallel, each of area [a], carry [rms] within the density [j]. *)
Definition carries (n : Z) (a j rms : R) : Prop := rms <= IZR n * (a * j).
Definition least (P : Z -> Prop) (n : Z) : Prop := P n /\ forall k, P k -> (n <= k)%Z.
Definition int_limit : Z := 2147483647.

Lemma ceil_least : forall x, let z := (- Int_part (- x))%Z in x <= IZR z /\ forall k, x <= IZR k -> (z <= k)%Z.
Proof.
  intros x z. destruct (base_Int_part (- x)) as (A & B).
  assert (E : IZR z = - IZR (Int_part (- x))) by (unfold z; apply opp_IZR).
  split; [lra|]. intros k L. assert (z < k + 1)%Z; [|lia]. apply lt_IZR. rewrite plus_IZR. lra.
Qed.

Lemma int_ceil_ok : forall x k, 0 <= x -> x <= IZR k -> (k <= int_limit)%Z ->
  exists z, int_ceil x = Ok z /\ x <= IZR z /\ (0 <= z)%Z /\ forall j, x <= IZR j -> (z <= j)%Z.
Proof.
  intros x k P L K. destruct (ceil_least x) as (A & B). pose (z := (- Int_part (- x))%Z). fold z in A, B.
  assert (Z0 : (0 <= z)%Z). { assert (-1 < z)%Z; [|lia]. apply lt_IZR. lra. }
  pose proof (B k L) as Zk. exists z. unfold int_ceil. fold z.
  assert (G : ((-2147483648 <=? z) && (z <=? 2147483647))%Z%bool = true).
  { apply andb_true_intro. split; apply Z.leb_le; unfold int_limit in K; lia. }
  rewrite G. auto.
Qed.

(** C142.  The parallels needed are the least count of wires that carries the
    current within the maximum density, provided a number that fits in an [int]
    does; none when there is no current. *)
Theorem C142_least : forall p w m t f rms j a k, usual w -> conducts w m t -> 0 <= rms -> 0 < j ->
  effective_area p w f t = Ok a -> carries k a j rms -> (k <= int_limit)%Z ->
  exists n, parallels_needed p w rms f t j = Ok n /\ (0 <= n)%Z
    /\ least (fun n => carries n a j rms) n /\ (0 < rms <-> (1 <= n)%Z).
Proof.
  intros p w m t f rms j a k U K Rm J E C L.
  destruct (C141_bounds p w m t f U K) as (area & a' & _ & E' & A). rewrite E in E'. injection E' as <-.
  assert (AJ : 0 < a * j) by (apply Rmult_lt_0_compat; lra).
  assert (V : forall z, rms / a / j <= IZR z <-> carries z a j rms).
  { intro z. unfold carries. replace (rms / a / j) with (rms / (a * j)) by (field; lra). split; intro H.
    - replace rms with (rms / (a * j) * (a * j)) by (field; lra). apply Rmult_le_compat_r; lra.
    - apply (Rmult_le_reg_r (a * j)); [exact AJ|]. unfold Rdiv. rewrite Rmult_assoc, Rinv_l by lra. lra. }
  assert (X0 : 0 <= rms / a / j).
  { apply Rmult_le_pos; [apply Rmult_le_pos; [lra|]|]; left; apply Rinv_0_lt_compat; lra. }
  destruct (int_ceil_ok (rms / a / j) k X0 (proj2 (V k) C) L) as (z & Ez & A1 & Z0 & Min).
  exists z. unfold parallels_needed, effective_density, parallels_of_density. rewrite E. cbn [bind].
  destruct (Req_EM_T a 0); [lra|]. cbn [bind]. destruct (Req_EM_T j 0); [lra|].
  split; [exact Ez|]. split; [exact Z0|]. split.
  - split; [apply V, A1|]. intros i Ci. apply Min, V, Ci.
  - apply V in A1. unfold carries in A1. split; intro H.
    + destruct (Z.eq_dec z 0) as [->|]; [|lia]. simpl in A1. lra.
    + destruct Rm as [|<-]; [assumption|exfalso]. assert (z <= 0)%Z; [|lia]. apply Min, V. unfold carries. simpl. lra.
Qed.

(** C142.  The density of the direct current is the rms over the whole conducting
    area, the least of all frequencies and temperatures. *)
Theorem C142_direct : forall p w m t x y rms, usual w -> conducts w m 25 -> conducts w m t -> 0 <= rms ->
  rms_of x = Some rms -> density_of_current p w (Some x) t = Ok y ->
  exists area d, conducting_area p w = Ok area /\ dc_density p w (Some x) = Ok d /\ d * area = rms /\ d <= y.
Proof.
  intros p w m t x y rms U K K' P E H. unfold density_of_current in H. unfold dc_density. cbn [required bind] in *. rewrite E in *. cbn [required bind] in *.
  destruct (effective_frequency x) as [f|]; cbn [required bind] in H; [|discriminate].
  destruct (effective_shape p w U) as (area & g & A & PA & _ & _ & V). destruct (V m 25 0 K) as (V0 & _).
  destruct (C141_bounds p w m t f U K') as (area' & a & A' & Ea & B). rewrite A in A'. injection A' as <-.
  unfold effective_density in *. rewrite (V0 ltac:(lra)). rewrite Ea in H. cbn [bind] in *.
  destruct (Req_EM_T a 0); [lra|]. destruct (Req_EM_T area 0); [lra|]. injection H as <-.
  exists area, (rms / area). repeat split; auto; [field; lra|].
  apply Rmult_le_compat_l; [exact P|]. apply Rinv_le_contravar; lra.
Qed.

(** C142.  More frequency or less temperature of the same current never needs fewer
    parallels; more maximum density never needs more. *)
Theorem C142_monotone : forall p w m t f f' rms rms' j j' n n', usual w -> conducts w m t ->
  0 <= rms <= rms' -> 0 < j' <= j -> f <= f' ->
  parallels_needed p w rms f t j = Ok n -> parallels_needed p w rms' f' t j' = Ok n' -> (n <= n')%Z.
Proof.
  intros p w m t f f' rms rms' j j' n n' U K Rm J L E E'.
  destruct (C141_bounds p w m t f U K) as (area & a & _ & Ea & A).
  destruct (C141_bounds p w m t f' U K) as (area' & a' & _ & Ea' & A').
  pose proof (C141_frequency p w m t f f' a a' U K L Ea Ea') as La.
  unfold parallels_needed, effective_density, parallels_of_density in E, E'.
  rewrite Ea in E. rewrite Ea' in E'. cbn [bind] in E, E'.
  destruct (Req_EM_T a 0); [lra|]. destruct (Req_EM_T a' 0); [lra|]. cbn [bind] in E, E'.
  destruct (Req_EM_T j 0); [lra|]. destruct (Req_EM_T j' 0); [lra|].
  unfold int_ceil in E, E'.
  destruct ((_ <=? - Int_part (- (rms / a / j))) && _)%Z%bool; [|discriminate].
  destruct ((_ <=? - Int_part (- (rms' / a' / j'))) && _)%Z%bool; [|discriminate].
  injection E as <-. injection E' as <-.
  destruct (ceil_least (rms / a / j)) as (_ & Min). destruct (ceil_least (rms' / a' / j')) as (Up & _).
  apply Min. refine (Rle_trans _ _ _ _ Up).
  replace (rms / a / j) with (rms * / (a * j)) by (field; lra).
  replace (rms' / a' / j') with (rms' * / (a' * j')) by (field; lra).
  apply Rmult_le_compat; try lra.
  - left. apply Rinv_0_lt_compat. apply Rmult_lt_0_compat; lra.
  - apply Rinv_le_contravar; [apply Rmult_lt_0_compat; lra|]. apply Rmult_le_compat; lra.
Qed.

(** The operating points that [calculate_number_parallels_needed] can use. *)
Definition point_ready (w : wire) (m : material) (pt : R * option current) (f rms : R) : Prop :=
  snd pt = Some (Some (mkProcessed (Some f) (Some rms))) /\ conducts w m (fst pt) /\ 0 <= rms.
(** [n] wires carry the current of the point. *)
Definition carries_at (p : option (R -> R)) (w : wire) (j : R) (n : Z) (pt : R * option current) : Prop :=
  exists f rms a, snd pt = Some (Some (mkProcessed (Some f) (Some rms)))
    /\ effective_area p w f (fst pt) = Ok a /\ carries n a j rms.

Lemma parallels_loop_least : forall p w m j k points most, usual w -> 0 < j -> (0 <= most)%Z -> (k <= int_limit)%Z ->
  (forall pt, In pt points -> exists f rms, point_ready w m pt f rms) ->
  (forall pt, In pt points -> carries_at p w j k pt) ->
  exists n, parallels_loop p w points j most = Ok n /\ (most <= n)%Z
    /\ (forall pt, In pt points -> carries_at p w j n pt)
    /\ (forall i, (most <= i)%Z -> (forall pt, In pt points -> carries_at p w j i pt) -> (n <= i)%Z).
Proof.
  intros p w m j k points. induction points as [|pt points IH]; intros most U J M L Rd C.
  - exists most. cbn. repeat split; [lia | intros pt [] | intros i I _; exact I].
  - destruct (Rd pt (or_introl eq_refl)) as (f & rms & (E & K & P)).
    destruct (C pt (or_introl eq_refl)) as (f' & rms' & a & E' & Ea & Ck). rewrite E in E'. injection E' as <- <-.
    destruct (C142_least p w m (fst pt) f rms j a k U K P J Ea Ck L) as (z & Ez & Z0 & (Cz & Min) & _).
    destruct (IH (Z.max most z) U J ltac:(lia) L) as (n & En & Ln & Cn & Mn).
    { intros q Q. apply Rd. right. exact Q. }
    { intros q Q. apply C. right. exact Q. }
    exists n. split; [|split; [lia|split]].
    + destruct pt as [t c]. cbn [fst snd] in *. cbn [parallels_loop]. rewrite E. cbn [required bind].
      unfold parallels_for_current, density_of_current. cbn [required bind effective_frequency rms_of].
      unfold parallels_needed in Ez. rewrite Ez. cbn [bind]. exact En.
    + intros q [<-|Q]; [|exact (Cn q Q)].
      exists f, rms, a. split; [exact E|]. split; [exact Ea|]. unfold carries in *.
      assert (A : 0 < a * j).
      { destruct (C141_bounds p w m (fst pt) f U K) as (area & a' & _ & E' & A). rewrite Ea in E'. injection E' as <-.
        apply Rmult_lt_0_compat; lra. }
      assert (IZR z <= IZR n) by (apply IZR_le; lia).
      apply Rle_trans with (IZR z * (a * j)); [exact Cz|]. apply Rmult_le_compat_r; lra.
    + intros i I Ci. apply Mn.
      * apply Z.max_lub; [exact I|]. apply Min. destruct (Ci pt (or_introl eq_refl)) as (f' & rms' & a' & E' & Ea' & Ck').
        rewrite E in E'. injection E' as <- <-. rewrite Ea in Ea'. injection Ea' as <-. exact Ck'.
      * intros q Q. apply Ci. right. exact Q.
Qed.

(** C142.  Over all the operating points the answer is the least count, not below
    zero, that carries the current of each. *)
Theorem C142_points : forall p w m j k points, usual w -> 0 < j -> (k <= int_limit)%Z ->
  (forall pt, In pt points -> exists f rms, point_ready w m pt f rms) ->
  (forall pt, In pt points -> carries_at p w j k pt) ->
  exists n, parallels_for_points p w points j = Ok n
    /\ least (fun n => (0 <= n)%Z /\ forall pt, In pt points -> carries_at p w j n pt) n.
Proof.
  intros p w m j k points U J L Rd C.
  destruct (parallels_loop_least p w m j k points 0 U J ltac:(lia) L Rd C) as (n & E & N & Cn & Mn).
  exists n. split; [exact E|]. split; [split; [lia | exact Cn]|]. intros i (I & Ci). apply Mn; assumption.
Qed.

(** C142.  A point without current, or whose current was not processed, is refused
    if the points before it can be used. *)
Theorem C142_missing : forall p w m j k before c after t, usual w -> 0 < j -> (k <= int_limit)%Z ->
  (forall pt, In pt before -> exists f rms, point_ready w m pt f rms) ->
  (forall pt, In pt before -> carries_at p w j k pt) ->
  (c = None \/ c = Some None \/ (exists r, c = Some (Some (mkProcessed None r)))
   \/ exists f, c = Some (Some (mkProcessed f None))) ->
  exists e, parallels_for_points p w (before ++ (t, c) :: after) j = Throw e.
Proof.
  intros p w m j k before c after t U J L Rd C Hc. unfold parallels_for_points.
  assert (G : forall l most (H : forall pt, In pt l -> exists f rms, point_ready w m pt f rms),
            (0 <= most)%Z -> (forall pt, In pt l -> carries_at p w j k pt) ->
            exists e, parallels_loop p w (l ++ (t, c) :: after) j most = Throw e).
  { induction l as [|pt l IH]; intros most H M Cl.
    - cbn [app parallels_loop].
      destruct Hc as [->|[->|[(r & ->)|(f & ->)]]]; cbn [required bind]; try (eexists; reflexivity);
        unfold parallels_for_current, density_of_current; cbn [required bind effective_frequency rms_of];
        try (eexists; reflexivity).
      destruct f; eexists; reflexivity.
    - destruct (H pt (or_introl eq_refl)) as (f & rms & (E & K & P)).
      destruct (Cl pt (or_introl eq_refl)) as (f' & rms' & a & E' & Ea & Ck). rewrite E in E'. injection E' as <- <-.
      destruct (C142_least p w m (fst pt) f rms j a k U K P J Ea Ck L) as (z & Ez & Z0 & _).
      destruct pt as [t0 c0]. cbn [fst snd] in *. cbn [app parallels_loop]. rewrite E. cbn [required bind].
      unfold parallels_for_current, density_of_current. cbn [required bind effective_frequency rms_of].
      unfold parallels_needed in Ez. rewrite Ez. cbn [bind]. apply IH.
      + intros q Q. apply H. right. exact Q.
      + lia.
      + intros q Q. apply Cl. right. exact Q. }
  apply G; [exact Rd | lia | exact C].
Qed.

Example C142_witness : usual strands /\ conducts strands copper 100
  /\ exists a, effective_area None strands 0 100 = Ok a
     /\ carries 3 a 5000000 8 /\ ~ carries 1 a 5000000 8
  /\ point_ready strands copper (100, Some (Some (mkProcessed (Some 0) (Some 8)))) 0 8.
Proof.
  destruct C141_witness as (H & K & _). split; [left; eauto|]. split; [exact K|].
  destruct (round_value None strands 100 (1 / 10000) copper 100 0 H K) as (V & _).
  rewrite (V ltac:(lra)). eexists. split; [reflexivity|]. unfold carries.
  pose proof PI2_3_2 as P3. pose proof PI_4 as P4.
  replace (INR 100) with 100 by (rewrite INR_IZR_INZ; reflexivity).
  split; [|split].
  - lra.
  - lra.
  - repeat split; [apply K | apply K | lra].
Qed.

(** * C143 *)
(** Every bundle of litz: bare, served or insulated, without the outer layers. *)
Definition bundle (s : standard) (n : nat) (strand_outer d : R) : Prop :=
  d = bare_litz s n strand_outer
  \/ exists packing, d = insulated_litz s n 0 0 packing strand_outer.

Lemma standard_packing_ge : forall s n, 1155 / 1000 <= standard_packing s n.
Proof.
  intros s n. unfold standard_packing. destruct s; [|lra].
  destruct (Nat.eqb n 2); [|destruct (Nat.ltb n 12), (Nat.ltb n 16), (Nat.ltb n 20); lra].
  apply Rsqr_incr_0_var; [|apply sqrt_pos]. rewrite Rsqr_sqrt by lra. unfold Rsqr. lra.
Qed.

(** C143.  The strands fill at most the share of the bundle that parallel round
    wires can fill, 0.9069. *)
Theorem C143_filling : forall s n o d, 0 < o -> bundle s n o d -> INR n * o ^ 2 <= 9069 / 10000 * d ^ 2.
Proof.
  assert (G : forall n o k, 0 < o -> 0 < k -> 1 <= 9069 / 10000 * k ^ 2 ->
            INR n * o ^ 2 <= 9069 / 10000 * (k * sqrt (INR n) * o) ^ 2).
  { intros n o k O K H. pose proof (pos_INR n) as N.
    replace ((k * sqrt (INR n) * o) ^ 2) with (k ^ 2 * (sqrt (INR n) * sqrt (INR n)) * o ^ 2) by ring.
    rewrite sqrt_sqrt by exact N.
    replace (9069 / 10000 * (k ^ 2 * INR n * o ^ 2)) with (9069 / 10000 * k ^ 2 * (INR n * o ^ 2)) by ring.
    assert (0 <= INR n * o ^ 2) by (apply Rmult_le_pos; [exact N | apply pow2_ge_0]).
    rewrite <- (Rmult_1_l (INR n * o ^ 2)) at 1. apply Rmult_le_compat_r; assumption. }
  intros s n o d O [->|(packing & ->)].
  - apply G; [exact O| |]; pose proof (standard_packing_ge s n); [lra|]. nra.
  - unfold insulated_litz. cbv zeta. replace (2 * 0 * INR 0) with 0 by (simpl; ring). rewrite Rplus_0_r.
    apply G; [exact O| |]; pose proof (standard_packing_ge s n) as SP.
    + destruct (Rlt_dec packing _) as [|L]; [lra|].
      assert (0 < 1 / sqrt (9069 / 10000)) by (apply Rdiv_lt_0_compat; [lra | apply sqrt_lt_R0; lra]). lra.
    + destruct (Rlt_dec packing _) as [|L]; [nra|].
      assert (Q : 0 < sqrt (9069 / 10000)) by (apply sqrt_lt_R0; lra).
      assert (E : 9069 / 10000 * (1 / sqrt (9069 / 10000)) ^ 2 = 1).
      { rewrite <- (sqrt_sqrt (9069 / 10000)) at 1 by lra. field. lra. }
      assert (P0 : 0 < 1 / sqrt (9069 / 10000)) by (apply Rdiv_lt_0_compat; lra).
      assert ((1 / sqrt (9069 / 10000)) ^ 2 <= packing ^ 2) by (apply pow_incr; lra). lra.
Qed.

Lemma packing_mono : forall s n n', (3 <= n)%nat -> (n <= n')%nat -> standard_packing s n <= standard_packing s n'.
Proof.
  intros s n n' N L. unfold standard_packing. destruct s; [|lra].
  destruct (Nat.eqb_spec n 2); [lia|]. destruct (Nat.eqb_spec n' 2); [lia|].
  destruct (Nat.ltb_spec n 12), (Nat.ltb_spec n 16), (Nat.ltb_spec n 20),
    (Nat.ltb_spec n' 12), (Nat.ltb_spec n' 16), (Nat.ltb_spec n' 20); try lia; lra.
Qed.

(** C143.  A bundle of more strands of the same size is wider. *)
Theorem C143_more_strands : forall s n n' o, 0 < o -> (n < n')%nat -> bare_litz s n o < bare_litz s n' o.
Proof.
  intros s n n' o O L. unfold bare_litz.
  assert (R : forall a b, (a < b)%nat -> sqrt (INR a) < sqrt (INR b)).
  { intros a b H. apply sqrt_lt_1; [apply pos_INR | apply pos_INR | apply lt_INR, H]. }
  assert (S0 : 0 <= sqrt (INR n)) by apply sqrt_pos. pose proof (R n n' L) as Rn.
  assert (C : forall k k', 0 < k -> k <= k' -> k * sqrt (INR n) * o < k' * sqrt (INR n') * o).
  { intros k k' K K'. apply Rmult_lt_compat_r; [exact O|].
    apply Rlt_le_trans with (k * sqrt (INR n')); [apply Rmult_lt_compat_l; assumption|].
    apply Rmult_le_compat_r; [lra | exact K']. }
  pose proof (standard_packing_ge s n) as P. pose proof (standard_packing_ge s n') as P'.
  destruct s; [|apply C; simpl in *; lra].
  destruct (le_lt_dec 3 n) as [N|N]; [apply C; [lra | apply packing_mono; lia]|].
  assert (S2 : 1414 / 1000 < sqrt 2 < 1415 / 1000).
  { assert (0 <= sqrt 2) by apply sqrt_pos. pose proof (sqrt_sqrt 2 ltac:(lra)). split; nra. }
  destruct n as [|[|[|n]]]; [| | |lia].
  - (* none *) apply Rmult_lt_compat_r; [exact O|]. change (INR 0) with 0 in *. rewrite sqrt_0, Rmult_0_r.
    apply Rmult_lt_0_compat; [lra|]. rewrite sqrt_0 in Rn. exact Rn.
  - (* one *) destruct (Nat.eq_dec n' 2) as [->|].
    + apply Rmult_lt_compat_r; [exact O|]. unfold standard_packing. cbn [Nat.eqb Nat.ltb Nat.leb].
      change (INR 1) with 1. rewrite sqrt_1. change (INR 2) with 2. rewrite sqrt_sqrt by lra. lra.
    + apply C; [lra|]. unfold standard_packing. destruct (Nat.eqb_spec n' 2); [lia|].
      change (Nat.eqb 1 2) with false. change (Nat.ltb 1 12) with true.
      destruct (Nat.ltb n' 12), (Nat.ltb n' 16), (Nat.ltb n' 20); lra.
  - (* two *) apply Rmult_lt_compat_r; [exact O|].
    assert (E2 : standard_packing Iec 2 * sqrt (INR 2) = 2).
    { unfold standard_packing. cbn [Nat.eqb]. change (INR 2) with 2. apply sqrt_sqrt. lra. }
    rewrite E2. apply Rlt_le_trans with (125 / 100 * sqrt (INR 3)).
    + replace (INR 3) with 3 by (simpl; ring). assert (0 <= sqrt 3) by apply sqrt_pos. pose proof (sqrt_sqrt 3 ltac:(lra)). nra.
    + apply Rmult_le_compat; [lra | apply sqrt_pos | |].
      * unfold standard_packing. destruct (Nat.eqb_spec n' 2); [lia|]. destruct (Nat.ltb n' 12), (Nat.ltb n' 16), (Nat.ltb n' 20); lra.
      * apply sqrt_le_1; try apply pos_INR. apply le_INR. lia.
Qed.

(** C143.  Serving adds its thickness on both sides, 25.5 um per layer, and takes
    at most two layers. *)
Theorem C143_served : forall s n layers o,
  ((layers <= 2)%nat -> served_litz s n layers o = Ok (bare_litz s n o + 2 * (INR layers * (255 / 10000000))))
  /\ ((2 < layers)%nat -> exists e, served_litz s n layers o = Throw e).
Proof.
  intros s n layers o. unfold served_litz, serving_thickness. split; intro L.
  - destruct layers as [|[|[|]]]; try lia; cbn [Nat.eqb Nat.leb bind]; f_equal; simpl; lra.
  - destruct layers as [|[|[|]]]; try lia. cbn [Nat.eqb Nat.leb bind]. eexists; reflexivity.
Qed.

(** C143.  Insulation adds its layers on both sides of the same bundle. *)
Theorem C143_insulated : forall s n layers t packing o,
  exists d, bundle s n o d /\ insulated_litz s n layers t packing o = d + 2 * (INR layers * t).
Proof.
  intros s n layers t packing o. exists (insulated_litz s n 0 0 packing o). split; [right; eauto|].
  unfold insulated_litz. simpl INR. ring.
Qed.

(** C143.  By IEC 60317 two strands fit side by side in every bundle of two or more. *)
Theorem C143_side_by_side : forall n o, 0 < o -> (2 <= n)%nat -> 2 * o <= bare_litz Iec n o.
Proof.
  intros n o O N. assert (E : bare_litz Iec 2 o = 2 * o).
  { unfold bare_litz, standard_packing. cbn [Nat.eqb]. change (INR 2) with 2. rewrite sqrt_sqrt by lra. reflexivity. }
  rewrite <- E. destruct (Nat.eq_dec n 2) as [->|]; [lra|]. left. apply C143_more_strands; [exact O | lia].
Qed.

(** Refuted for the other standards: bundles of two and of three strands are
    narrower than the strands need. Two strands need twice their diameter, three
    at least that and the overhang of the third. *)
Theorem C143_side_by_side_refuted : forall o, 0 < o ->
  bare_litz OtherStandard 2 o < 2 * o /\ bare_litz OtherStandard 3 o < (1 + 2 / sqrt 3) * o.
Proof.
  intros o O. unfold bare_litz, standard_packing. change (INR 2) with 2.
  replace (INR 3) with 3 by (simpl; ring).
  assert (0 <= sqrt 2) by apply sqrt_pos. pose proof (sqrt_sqrt 2 ltac:(lra)).
  assert (T : 0 < sqrt 3) by (apply sqrt_lt_R0; lra). pose proof (sqrt_sqrt 3 ltac:(lra)) as T2.
  split; apply Rmult_lt_compat_r; try exact O; [nra|].
  assert (I : 2 / sqrt 3 = 2 / 3 * sqrt 3) by (rewrite <- T2 at 2; field; lra). rewrite I. nra.
Qed.

(** Refuted: a bundle of one strand is a quarter wider than the strand by IEC 60317,
    and a seventh by the others. *)
Theorem C143_single_strand_refuted : forall o, 0 < o ->
  bare_litz Iec 1 o = 5 / 4 * o /\ bare_litz OtherStandard 1 o = 1155 / 1000 * o.
Proof. intros o O. unfold bare_litz, standard_packing. cbn [Nat.eqb Nat.ltb Nat.leb]. change (INR 1) with 1. rewrite sqrt_1. split; lra. Qed.

Example C143_witness : bundle Iec 100 (12 / 100000) (128 / 100 * sqrt (INR 100) * (12 / 100000))
  /\ bundle OtherStandard 100 (12 / 100000) (12 / 10 * sqrt (INR 100) * (12 / 100000)).
Proof.
  split; [left; reflexivity|]. right. exists (12 / 10). unfold insulated_litz. cbv zeta.
  destruct (Rlt_dec (12 / 10) _) as [L|_]; [exfalso|simpl INR; ring].
  assert (Q : 0 < sqrt (9069 / 10000)) by (apply sqrt_lt_R0; lra). pose proof (sqrt_sqrt (9069 / 10000) ltac:(lra)).
  assert (12 / 10 * sqrt (9069 / 10000) < 1).
  { replace 1 with (1 / sqrt (9069 / 10000) * sqrt (9069 / 10000)) by (field; lra). apply Rmult_lt_compat_r; assumption. }
  nra.
Qed.

(** * C144 *)
(** C144.  The layers of insulation the coating stands for: never more than it has
    (one when it does not say), and never more than the times the voltage fits in
    85% of its breakdown voltage; the largest such count. *)
Theorem C144_equivalent_layers : forall c bv v n, breakdown c = Some bv -> 0 <= bv -> 0 < v ->
  85 / 100 * bv / v < 2147483647 -> equivalent_layers (Some c) v = Ok n ->
  let layers := match layers_of c with Some l => l | None => 1%Z end in
  (n <= layers)%Z /\ IZR n * v <= 85 / 100 * bv
  /\ forall k, (k <= layers)%Z -> IZR k * v <= 85 / 100 * bv -> (k <= n)%Z.
Proof.
  intros c bv v n E B V Big H layers. unfold equivalent_layers in H. rewrite E in H. cbn [required bind] in H.
  destruct (Req_EM_T v 0); [lra|]. fold layers in H.
  set (x := bv * (85 / 100) / v) in H. destruct (base_Int_part x) as (A1 & A2).
  destruct ((_ <=? Int_part x) && _)%Z%bool; [|discriminate].
  assert (F : forall k, IZR k * v <= 85 / 100 * bv <-> (k <= Int_part x)%Z).
  { intro k. assert (Ex : x * v = 85 / 100 * bv) by (unfold x; field; lra). rewrite <- Ex. split; intro Q.
    - apply Rmult_le_reg_r in Q; [|exact V]. assert (k < Int_part x + 1)%Z; [|lia]. apply lt_IZR. rewrite plus_IZR. lra.
    - apply Rmult_le_compat_r; [lra|]. apply IZR_le in Q. lra. }
  destruct (Z.ltb_spec (Int_part x) layers) as [L|L]; injection H as <-.
  - split; [lia|]. split; [apply F; lia|]. intros k _ Q. apply F, Q.
  - split; [lia|]. split; [apply F; lia|]. intros k Q _. exact Q.
Qed.

(** C144.  It is given whenever the coating has a breakdown voltage: none without
    coating, and refused without breakdown voltage. *)
Theorem C144_given : forall c bv v, breakdown c = Some bv -> 0 <= bv -> 0 < v -> 85 / 100 * bv / v < 2147483647 ->
  exists n, equivalent_layers (Some c) v = Ok n.
Proof.
  intros c bv v E B V Big. unfold equivalent_layers. rewrite E. cbn [required bind].
  destruct (Req_EM_T v 0); [lra|]. set (x := bv * (85 / 100) / v). destruct (base_Int_part x) as (A1 & A2).
  assert (X : 0 <= x < 2147483647).
  { split; [|replace x with (85 / 100 * bv / v) by (unfold x; field; lra); exact Big].
    unfold x. apply Rmult_le_pos; [apply Rmult_le_pos; lra | left; apply Rinv_0_lt_compat, V]. }
  assert (L1 : (-1 < Int_part x)%Z) by (apply lt_IZR; lra).
  assert (L2 : (Int_part x < 2147483647)%Z) by (apply lt_IZR; lra).
  assert (G : ((-2147483648 <=? Int_part x) && (Int_part x <=? 2147483647))%Z%bool = true).
  { apply andb_true_intro. split; apply Z.leb_le; lia. }
  rewrite G. eexists. reflexivity.
Qed.
Theorem C144_without : forall v, equivalent_layers None v = Ok 0%Z
  /\ forall c, breakdown c = None -> exists e, equivalent_layers (Some c) v = Throw e.
Proof. intro v. split; [reflexivity|]. intros c E. unfold equivalent_layers. rewrite E. eexists. reflexivity. Qed.

(** C144.  Cutting a foil or a planar wire to a section makes it fit along the
    section with a margin of a twentieth, leaves the other side alone, and leaves
    no coating; other wires are refused. *)
Theorem C144_cut : forall w sw sh,
  (cut_kind w = Foil -> exists w', cut_foil w (sw, sh) = Ok w' /\ outer w' = conducting w'
     /\ snd (outer w') = Some (19 / 20 * sh) /\ fst (conducting w') = fst (conducting w))
  /\ (cut_kind w = Planar -> exists w', cut_planar w (sw, sh) = Ok w' /\ outer w' = conducting w'
     /\ fst (outer w') = Some (19 / 20 * sw) /\ snd (conducting w') = snd (conducting w)
     /\ forall h, snd (conducting w) = Some h -> cut_area w' = Some (19 / 20 * sw * h))
  /\ (cut_kind w <> Foil -> exists e, cut_foil w (sw, sh) = Throw e)
  /\ (cut_kind w <> Planar -> exists e, cut_planar w (sw, sh) = Throw e).
Proof.
  intros w sw sh. unfold cut_foil, cut_planar. repeat split; intro K.
  - rewrite K. eexists. split; [reflexivity|]. cbn. repeat split. f_equal. lra.
  - rewrite K. eexists. split; [reflexivity|]. cbn. repeat split; [f_equal; lra|]. intros h ->. f_equal. f_equal. lra.
  - destruct (cut_kind w); try (eexists; reflexivity). congruence.
  - destruct (cut_kind w); try (eexists; reflexivity). congruence.
Qed.

(** Refuted for foil: the conducting area that the wire carries stays the one of
    before the cut. *)
Theorem C144_foil_area_refuted : forall w sw sh w', cut_foil w (sw, sh) = Ok w' -> cut_area w' = cut_area w.
Proof. intros w sw sh w' H. unfold cut_foil in H. destruct (cut_kind w); try discriminate. injection H as <-. reflexivity. Qed.

Example C144_witness :
  equivalent_layers (Some (mkInsulation (Some 5000) (Some 3%Z))) 3000 = Ok 1%Z
  /\ exists w', cut_foil (mkCut Foil (Some (1 / 1000), Some (1 / 10)) (None, None) (Some (1 / 10000))) (1 / 100, 2 / 100) = Ok w'
     /\ cut_area w' <> Some (1 / 1000 * (19 / 20 * (2 / 100))).
Proof.
  split.
  - assert (E : exists n, equivalent_layers (Some (mkInsulation (Some 5000) (Some 3%Z))) 3000 = Ok n)
      by (eapply C144_given; [reflexivity | lra | lra | lra]).
    destruct E as (n & E). rewrite E.
    destruct (C144_equivalent_layers (mkInsulation (Some 5000) (Some 3%Z)) 5000 3000 n eq_refl ltac:(lra) ltac:(lra) ltac:(lra) E) as (A & B & C).
    cbn in A, C. assert (n < 2)%Z by (apply lt_IZR; lra). pose proof (C 1%Z ltac:(lia) ltac:(lra)). f_equal. lia.
  - eexists. split; [reflexivity|]. cbn. intro H. injection H. lra.
Qed.

Print Assumptions C141_bounds.
Print Assumptions C141_frequency.
Print Assumptions C141_temperature.
Print Assumptions C142_least.
Print Assumptions C142_points.
Print Assumptions C142_direct.
Print Assumptions C143_filling.
Print Assumptions C143_more_strands.
Print Assumptions C144_equivalent_layers.
Print Assumptions C144_cut.
