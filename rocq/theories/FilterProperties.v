(** C167: the saturation filter keeps a candidate exactly when no operating point
    saturates it.  C168: current densities.  C169: stored energy.  C170: turns ratios,
    inductance, and the two decisions whether a design is a transformer. *)
From Coq Require Import ZArith QArith Qabs List String Bool Arith Lia Lqa Permutation.
From Verif Require Import Base QAux UtilsNumModel FilterModel HarmonicProofs.
Import ListNotations.
Open Scope outcome_scope.
Open Scope Q_scope.

Lemma lt_iff : forall a b, Qlt_bool a b = true <-> a < b.
Proof.
  intros a b. unfold Qlt_bool. rewrite negb_true_iff. split; intro H.
  - destruct (Qlt_le_dec a b) as [L|L]; [exact L|]. apply Qle_bool_iff in L. congruence.
  - destruct (Qle_bool b a) eqn:E; [|reflexivity]. apply Qle_bool_iff in E. lra.
Qed.
Lemma lt_niff : forall a b, Qlt_bool a b = false <-> b <= a.
Proof.
  intros a b. unfold Qlt_bool. rewrite negb_false_iff. apply Qle_bool_iff.
Qed.
Lemma le_niff : forall a b, Qle_bool a b = false <-> b < a.
Proof.
  intros a b. split; intro H.
  - destruct (Qlt_le_dec b a) as [L|L]; [exact L|]. apply Qle_bool_iff in L. congruence.
  - destruct (Qle_bool a b) eqn:E; [|reflexivity]. apply Qle_bool_iff in E. lra.
Qed.

(** ** Vocabulary *)

(** The temperature saturation is judged at: the hotter of the two. *)
Definition hotter (ambient floor t : Q) : Prop :=
  ambient <= t /\ floor <= t /\ (t = ambient \/ t = floor).

(** The peak flux density of the candidate at an operating point.  An inductor: what
    its current makes.  A transformer, by Faraday's law: the volt seconds over turns
    and area, or, for want of them, the peak of the voltage over turns, area and
    angular frequency. *)
Definition peak_flux (inductor : bool) (p : part) (o : point) (b : Q) : Prop :=
  if inductor then o_flux o = Some b
  else match o_voltage o with
       | Some v => if Qlt_bool 0 (o_volt_seconds o)
                   then b * (p_turns p * p_area p) == o_volt_seconds o
                   else b * (p_turns p * p_area p * o_omega o) == v
       | None => o_waveform o = true /\
                 match o_induced o with
                 | Some v => b * (p_turns p * p_area p * o_omega o) == v
                 | None => b == 0
                 end
       end.

(** A part that can be wound and excited. *)
Definition physical (p : part) (o : point) : Prop :=
  0 < p_turns p /\ 0 < p_area p /\ 0 < o_omega o.

(** A tagged choke whose currents cancel. *)
Definition exempt (r : requirements) (o : point) : Prop :=
  (r_topology r = Some COMMON_MODE_CHOKE \/ r_common_mode r = true) /\ o_symmetric o = true.

(** The candidate clears the point with the margin. *)
Definition clears (inductor : bool) (margin floor : Q) (p : part) (o : point) : Prop :=
  exists t b, hotter (o_ambient o) floor t /\ peak_flux inductor p o b /\
    b * margin <= p_saturation p t /\
    (inductor = true -> exists peak isat, o_peak o = Some peak /\ p_current p t = Ok isat /\ margin * peak <= isat).

(** The point rules the candidate out. *)
Definition saturates (inductor : bool) (margin floor : Q) (p : part) (o : point) : Prop :=
  (inductor = true /\ o_flux o = None) \/
  exists t, hotter (o_ambient o) floor t /\
    ((exists b, peak_flux inductor p o b /\ p_saturation p t < b * margin) \/
     (inductor = true /\ exists peak isat, o_peak o = Some peak /\ p_current p t = Ok isat /\ isat < margin * peak)).

Lemma hot : forall ambient floor, hotter ambient floor (saturation_temperature floor ambient).
Proof.
  intros. unfold saturation_temperature, cmax, hotter. destruct (Qlt_bool ambient floor) eqn:E.
  - apply lt_iff in E. repeat split; [lra|lra|right; reflexivity].
  - apply lt_niff in E. repeat split; [lra|lra|left; reflexivity].
Qed.

Lemma qle_false : forall x, 0 < x -> Qle_bool x 0 = false.
Proof. intros x H. apply le_niff. exact H. Qed.

Lemma transformer_flux_spec : forall p o b, physical p o ->
  transformer_flux p o = Ok b -> peak_flux false p o b.
Proof.
  intros p o b (T & A & W) H. unfold transformer_flux in H. unfold peak_flux.
  assert (TA : 0 < p_turns p * p_area p) by nra.
  assert (TAW : 0 < p_turns p * p_area p * o_omega o) by nra.
  assert (V : forall v, flux_by_voltage p v (o_omega o) * (p_turns p * p_area p * o_omega o) == v).
  { intro v. unfold flux_by_voltage. rewrite !qle_false by assumption. cbn [orb]. field. repeat split; lra. }
  destruct (o_voltage o) as [v|].
  - destruct (o_waveform o); cbv beta iota zeta in H;
    (destruct (Qlt_bool 0 (o_volt_seconds o)) eqn:E; cbn [andb] in H;
      [ rewrite (proj2 (lt_iff _ _) T) in H; inversion H; subst; unfold flux_by_volt_seconds;
        apply lt_iff in E; rewrite !qle_false by assumption; cbn [orb]; field; split; lra
      | inversion H; subst; apply V ]).
  - destruct (o_waveform o); [|discriminate]. split; [reflexivity|]. cbv beta iota zeta in H.
    replace (Qlt_bool 0 0) with false in H by reflexivity. cbn [andb] in H. inversion H; subst.
    destruct (o_induced o) as [v|]; [apply V|]. unfold flux_by_voltage. rewrite !qle_false by assumption. cbn [orb].
    unfold Qdiv. lra.
Qed.

Lemma choke_exempt : forall r o, tagged_choke r && o_symmetric o = true <-> exempt r o.
Proof.
  intros r o. unfold tagged_choke, exempt. rewrite andb_true_iff, orb_true_iff.
  assert (K : (match r_topology r with Some COMMON_MODE_CHOKE => true | _ => false end = true)
              <-> r_topology r = Some COMMON_MODE_CHOKE).
  { destruct (r_topology r) as [[]|]; split; intro H; try discriminate; reflexivity. }
  rewrite K. tauto.
Qed.

(** ** C167 *)

(** One round of the loop. *)
Definition contribution (inductor : bool) (margin : Q) (p : part) (t b : Q) (peak isat : Q) : Q :=
  (if Qlt_bool 0 (p_saturation p t) then b / p_saturation p t else 1)
  + (if inductor then (if Qlt_bool 0 isat then margin * peak / isat else 1) else 0).

Lemma round : forall inductor tagged margin floor p o l total r,
  saturation_loop inductor tagged margin floor p (o :: l) total = Ok r ->
  let t := saturation_temperature floor (o_ambient o) in
  (r = None /\ inductor = true /\ o_flux o = None) \/
  exists b, (if inductor then o_flux o = Some b else transformer_flux p o = Ok b) /\
    ((tagged && o_symmetric o = true /\ saturation_loop inductor tagged margin floor p l total = Ok r) \/
     (tagged && o_symmetric o = false /\
      ((r = None /\ p_saturation p t < b * margin) \/
       (b * margin <= p_saturation p t /\ inductor = false /\
        saturation_loop inductor tagged margin floor p l
          (total + (if Qlt_bool 0 (p_saturation p t) then b / p_saturation p t else 1)) = Ok r) \/
       (b * margin <= p_saturation p t /\ inductor = true /\
        exists peak isat, o_peak o = Some peak /\ p_current p t = Ok isat /\
          ((r = None /\ isat < margin * peak) \/
           (margin * peak <= isat /\
            saturation_loop inductor tagged margin floor p l
              (total + (if Qlt_bool 0 (p_saturation p t) then b / p_saturation p t else 1)
                + (if Qlt_bool 0 isat then margin * peak / isat else 1)) = Ok r)))))).
Proof.
  intros inductor tagged margin floor p o l total r H t. cbn [saturation_loop] in H. fold t in H.
  apply bind_ok in H. destruct H as (f & F & H). destruct f as [b|].
  2:{ destruct inductor.
      - inversion F as [E]. inversion H. left. rewrite E. auto.
      - apply bind_ok in F. destruct F as (x & _ & F). discriminate. }
  right. exists b. split.
  { destruct inductor; [congruence|]. apply bind_ok in F. destruct F as (x & X & F). congruence. }
  destruct (tagged && o_symmetric o).
  - left. split; [reflexivity|]. cbn [negb andb] in H. rewrite andb_false_r in H. exact H.
  - right. split; [reflexivity|]. cbn [negb andb] in H.
    destruct (Qlt_bool (p_saturation p t) (b * margin)) eqn:E.
    + left. inversion H. split; [reflexivity|]. apply lt_iff. exact E.
    + right. apply lt_niff in E. rewrite andb_true_r in H. destruct inductor.
      * right. split; [exact E|]. split; [reflexivity|]. destruct (o_peak o) as [peak|]; [|discriminate].
        apply bind_ok in H. destruct H as (isat & I0 & H). exists peak, isat. split; [reflexivity|]. split; [exact I0|].
        cbv zeta in H. destruct (Qlt_bool isat (margin * peak)) eqn:C.
        -- left. inversion H. split; [reflexivity|]. apply lt_iff. exact C.
        -- right. split; [apply lt_niff; exact C|]. exact H.
      * left. split; [exact E|]. split; [reflexivity|]. exact H.
Qed.

Lemma flux_is : forall inductor p o b, (inductor = false -> physical p o) ->
  (if inductor then o_flux o = Some b else transformer_flux p o = Ok b) -> peak_flux inductor p o b.
Proof.
  intros [] p o b P H; [exact H|]. apply transformer_flux_spec; [apply P; reflexivity|exact H].
Qed.

(** A candidate that is kept clears every operating point with the margin, at the
    hotter of the ambient and the derating temperature. *)
Theorem C167_kept : forall r margin floor p l s,
  (forall o, In o l -> physical p o) ->
  saturation_filter r margin floor p l = Ok (true, s) ->
  forall o, In o l -> ~ exempt r o -> clears (is_inductor r) margin floor p o.
Proof.
  intros r margin floor p l s P H. unfold saturation_filter in H. apply bind_ok in H. destruct H as (t & H & R).
  destruct t as [total|]; [|discriminate]. clear R s.
  revert H. generalize 0 as start. revert total.
  induction l as [|o l IH]; intros total start H o' I0 X; [destruct I0|].
  destruct I0 as [E|I0].
  - subst o'. apply round in H. cbv zeta in H. destruct H as [(K & _)|(b & F & H)]; [discriminate|].
    apply flux_is in F; [|intro; apply P; left; reflexivity].
    destruct H as [(C & _)|(C & H)]; [exfalso; apply X; apply choke_exempt; exact C|].
    exists (saturation_temperature floor (o_ambient o)), b. split; [apply hot|]. split; [exact F|].
    destruct H as [(K & _)|[(B & I & _)|(B & I & peak & isat & PK & IS & H)]]; [discriminate| |].
    + split; [exact B|]. rewrite I. discriminate.
    + split; [exact B|]. intros _. exists peak, isat. split; [exact PK|]. split; [exact IS|].
      destruct H as [(K & _)|(M & _)]; [discriminate|exact M].
  - apply round in H. cbv zeta in H. destruct H as [(K & _)|(b & F & H)]; [discriminate|].
    assert (P' : forall o0, In o0 l -> physical p o0) by (intros; apply P; right; assumption).
    destruct H as [(_ & H)|(_ & [(K & _)|[(_ & _ & H)|(_ & _ & peak & isat & _ & _ & [(K & _)|(_ & H)])]])];
      try discriminate; exact (IH P' _ _ H o' I0 X).
Qed.

(** A candidate that is dropped is ruled out by one of the operating points. *)
Theorem C167_dropped : forall r margin floor p l s,
  (forall o, In o l -> physical p o) ->
  saturation_filter r margin floor p l = Ok (false, s) ->
  s = Some 0 /\ exists o, In o l /\ saturates (is_inductor r) margin floor p o /\
                          (exempt r o -> is_inductor r = true /\ o_flux o = None).
Proof.
  intros r margin floor p l s P H. unfold saturation_filter in H. apply bind_ok in H. destruct H as (t & H & R).
  destruct t as [total|]; [discriminate|]. split; [congruence|]. clear R s.
  revert H. generalize 0 as start.
  induction l as [|o l IH]; intros start H; [discriminate|].
  assert (P' : forall o0, In o0 l -> physical p o0) by (intros; apply P; right; assumption).
  assert (K : (exists o0, In o0 l /\ saturates (is_inductor r) margin floor p o0 /\ (exempt r o0 -> is_inductor r = true /\ o_flux o0 = None)) ->
    exists o0, In o0 (o :: l) /\ saturates (is_inductor r) margin floor p o0 /\ (exempt r o0 -> is_inductor r = true /\ o_flux o0 = None)).
  { intros (o0 & A & B). exists o0. split; [right; exact A|exact B]. }
  apply round in H. cbv zeta in H. destruct H as [(_ & I & N)|(b & F & H)].
  - exists o. split; [left; reflexivity|]. split; [left; auto|auto].
  - apply flux_is in F; [|intro; apply P; left; reflexivity].
    destruct H as [(_ & H)|(C & H)]; [apply K; exact (IH P' _ H)|].
    assert (X : exempt r o -> is_inductor r = true /\ o_flux o = None).
    { intro E. apply choke_exempt in E. congruence. }
    destruct H as [(_ & S)|[(_ & _ & H)|(_ & I & peak & isat & PK & IS & [(_ & M)|(_ & H)])]].
    + exists o. split; [left; reflexivity|]. split; [|exact X]. right.
      exists (saturation_temperature floor (o_ambient o)). split; [apply hot|]. left. exists b. auto.
    + apply K. exact (IH P' _ H).
    + exists o. split; [left; reflexivity|]. split; [|exact X]. right.
      exists (saturation_temperature floor (o_ambient o)). split; [apply hot|]. right. split; [exact I|]. exists peak, isat. auto.
    + apply K. exact (IH P' _ H).
Qed.

(** One verdict per point: what clears a point is not ruled out by it (temperatures
    that are equal numbers being one temperature). *)
Lemma clears_not_saturates : forall inductor margin floor p o,
  (forall x y, x == y -> p_saturation p x == p_saturation p y) ->
  (forall x y, x == y -> p_current p x = p_current p y) ->
  physical p o -> clears inductor margin floor p o -> saturates inductor margin floor p o -> False.
Proof.
  intros inductor margin floor p o PS PC (T & A & W) (t & b & (T1 & T2 & T3) & F & B & C) S.
  destruct S as [(I & N)|(t' & (U1 & U2 & U3) & S)].
  - subst. unfold peak_flux in F. congruence.
  - assert (E : t == t') by (destruct T3, U3; subst; lra).
    destruct S as [(b' & F' & B')|(I & peak & isat & PK & IS & L)].
    + rewrite <- (PS t t' E) in B'.
      assert (EB : b == b').
      { unfold peak_flux in F, F'. destruct inductor; [assert (b = b') by congruence; subst; reflexivity|].
        assert (TA : 0 < p_turns p * p_area p) by nra.
        assert (TAW : 0 < p_turns p * p_area p * o_omega o) by nra.
        assert (K : forall c, 0 < c -> b * c == b' * c -> b == b').
        { intros c Pc Ec. apply (Qmult_inj_r b b' c); [lra|exact Ec]. }
        destruct (o_voltage o); [destruct (Qlt_bool 0 (o_volt_seconds o))|destruct (o_induced o)].
        - apply (K (p_turns p * p_area p)); [exact TA|]. rewrite F, F'. reflexivity.
        - apply (K (p_turns p * p_area p * o_omega o)); [exact TAW|]. rewrite F, F'. reflexivity.
        - destruct F as [_ F], F' as [_ F']. apply (K (p_turns p * p_area p * o_omega o)); [exact TAW|]. rewrite F, F'. reflexivity.
        - destruct F as [_ F], F' as [_ F']. lra. }
      rewrite <- EB in B'. lra.
    + destruct (C I) as (peak' & isat' & PK' & IS' & M). rewrite (PC t t' E) in IS'.
      assert (peak = peak') by congruence. assert (isat = isat') by congruence. subst. lra.
Qed.

(** The verdict does not depend on the order of the operating points. *)
Theorem C167_order : forall r margin floor p l l' v v' s s',
  (forall x y, x == y -> p_saturation p x == p_saturation p y) ->
  (forall x y, x == y -> p_current p x = p_current p y) ->
  (forall o, In o l -> physical p o) -> Permutation l l' ->
  saturation_filter r margin floor p l = Ok (v, s) ->
  saturation_filter r margin floor p l' = Ok (v', s') -> v = v'.
Proof.
  intros r margin floor p l l' v v' s s' PS PC P Q0 H H'.
  assert (P' : forall o, In o l' -> physical p o).
  { intros o I0. apply P. apply (Permutation_in o (Permutation_sym Q0)). exact I0. }
  assert (K : forall l l' s s', (forall o, In o l -> physical p o) -> (forall o, In o l' -> physical p o) ->
     (forall o, In o l' -> In o l) -> saturation_filter r margin floor p l = Ok (true, s) ->
     saturation_filter r margin floor p l' = Ok (false, s') -> False).
  { clear - PS PC. intros l l' s s' P P' I0 H H'. destruct (C167_dropped _ _ _ _ _ _ P' H') as (_ & o & IO & S & X).
    pose proof (I0 o IO) as IL.
    destruct (tagged_choke r && o_symmetric o) eqn:E.
    - apply choke_exempt in E. destruct (X E) as (I1 & N).
      (* a kept candidate has its flux at every point, even an exempt one *)
      clear S X IO H' I0. unfold saturation_filter in H. apply bind_ok in H. destruct H as (t & H & R).
      destruct t as [total|]; [|discriminate]. clear R. revert H. generalize 0 as start. revert total.
      induction l as [|o2 l IH]; intros total start H; [destruct IL|].
      apply round in H. cbv zeta in H. rewrite I1 in H. destruct H as [(K & _)|(b & F & H)]; [discriminate|].
      destruct IL as [EQ|IL]; [subst; congruence|].
      assert (P2 : forall o0, In o0 l -> physical p o0) by (intros; apply P; right; assumption).
      rewrite <- I1 in H.
      destruct H as [(_ & H)|(_ & [(K & _)|[(_ & _ & H)|(_ & _ & peak & isat & _ & _ & [(K & _)|(_ & H)])]])];
        try discriminate; exact (IH P2 IL _ _ H).
    - assert (N : ~ exempt r o) by (intro K; apply choke_exempt in K; congruence).
      exact (clears_not_saturates _ _ _ _ _ PS PC (P' o IO) (C167_kept _ _ _ _ _ _ P H o IL N) S). }
  destruct v, v'; try reflexivity; exfalso.
  - refine (K l l' s s' P P' _ H H'). intros o I0. apply (Permutation_in o (Permutation_sym Q0)). exact I0.
  - refine (K l' l s' s P' P _ H' H). intros o I0. apply (Permutation_in o Q0). exact I0.
Qed.

(** What is kept with a margin is kept with every smaller one. *)
Theorem C167_margin : forall r m m' floor p l s,
  (forall o, In o l -> physical p o) ->
  (forall o b, In o l -> peak_flux (is_inductor r) p o b -> 0 <= b) ->
  (forall o k, In o l -> o_peak o = Some k -> 0 <= k) -> m' <= m ->
  saturation_filter r m floor p l = Ok (true, s) ->
  exists s', saturation_filter r m' floor p l = Ok (true, s').
Proof.
  intros r m m' floor p l s P FB PK L H. unfold saturation_filter in *. apply bind_ok in H. destruct H as (t & H & R).
  destruct t as [total|]; [|discriminate]. clear R s.
  assert (K : exists total', saturation_loop (is_inductor r) (tagged_choke r) m' floor p l 0 = Ok (Some total')).
  { revert H. generalize 0 at 1 as start. generalize 0 as start'. revert total.
    induction l as [|o l IH]; intros total start' start H; [exists start'; reflexivity|].
    assert (P' : forall o0, In o0 l -> physical p o0) by (intros; apply P; right; assumption).
    assert (FB' : forall o0 b, In o0 l -> peak_flux (is_inductor r) p o0 b -> 0 <= b) by (intros o0 b I0; apply FB; right; assumption).
    assert (PK' : forall o0 k, In o0 l -> o_peak o0 = Some k -> 0 <= k) by (intros o0 k I0; apply PK; right; assumption).
    apply round in H. cbv zeta in H. destruct H as [(K & _)|(b & F & H)]; [discriminate|].
    pose proof (flux_is _ _ _ _ (fun _ => P o (or_introl eq_refl)) F) as F'.
    pose proof (FB o b (or_introl eq_refl) F') as PB.
    cbn [saturation_loop].
    assert (FO : (if is_inductor r then Ok (o_flux o) else f <- transformer_flux p o ;; Ok (Some f)) = Ok (Some b)).
    { destruct (is_inductor r); [congruence|]. rewrite F. reflexivity. }
    rewrite FO. cbn [bind]. cbv zeta.
    destruct H as [(C & H)|(C & H)].
    - rewrite C. cbn [negb andb]. rewrite andb_false_r. exact (IH P' FB' PK' _ _ _ H).
    - rewrite C. cbn [negb andb]. rewrite andb_true_r.
      destruct H as [(K & _)|[(B & I & H)|(B & I & peak & isat & PKO & IS & H)]]; [discriminate| |].
      + rewrite (proj2 (lt_niff _ (b * m'))) by nra. rewrite I in *. exact (IH P' FB' PK' _ _ _ H).
      + rewrite (proj2 (lt_niff _ (b * m'))) by nra. rewrite I in *. rewrite PKO. rewrite IS. cbn [bind].
        destruct H as [(K & _)|(M & H)]; [discriminate|].
        pose proof (PK o peak (or_introl eq_refl) PKO) as PP.
        rewrite (proj2 (lt_niff isat (m' * peak))) by nra. exact (IH P' FB' PK' _ _ _ H). }
  destruct K as (total' & ->). cbn [bind]. eexists. reflexivity.
Qed.

(** The score of a kept candidate: nought for no flux and no current, and never above
    one for the current plus the reciprocal of the margin for the flux. *)
Theorem C167_score : forall r margin floor p l s,
  0 < margin -> l <> nil ->
  (forall o, In o l -> physical p o) ->
  (forall t, 0 < p_saturation p t) -> (forall t i, p_current p t = Ok i -> 0 < i) ->
  (forall o b, In o l -> peak_flux (is_inductor r) p o b -> 0 <= b) ->
  (forall o k, In o l -> o_peak o = Some k -> 0 <= k) ->
  saturation_filter r margin floor p l = Ok (true, s) ->
  exists x, s = Some x /\ 0 <= x <= 1 / margin + 1.
Proof.
  intros r margin floor p l s M NE P S0 I0 FB PK H. unfold saturation_filter in H. apply bind_ok in H. destruct H as (t & H & R).
  destruct t as [total|]; [|discriminate].
  set (c := 1 / margin + 1).
  assert (C : 0 < 1 / margin) by (apply Qlt_shift_div_l; lra).
  assert (K : 0 <= total <= inject_Z (Z.of_nat (List.length l)) * c).
  { assert (G : forall l start total, 
      (forall o, In o l -> physical p o) ->
      (forall o b, In o l -> peak_flux (is_inductor r) p o b -> 0 <= b) ->
      (forall o k, In o l -> o_peak o = Some k -> 0 <= k) ->
      saturation_loop (is_inductor r) (tagged_choke r) margin floor p l start = Ok (Some total) ->
      start <= total /\ total <= start + inject_Z (Z.of_nat (List.length l)) * c).
    { clear - M S0 I0 C. induction l as [|o l IH]; intros start total P FB PK H.
      - cbn [saturation_loop] in H. inversion H; subst. cbn [List.length Z.of_nat]. change (inject_Z 0) with 0. lra.
      - assert (P' : forall o0, In o0 l -> physical p o0) by (intros; apply P; right; assumption).
        assert (FB' : forall o0 b, In o0 l -> peak_flux (is_inductor r) p o0 b -> 0 <= b) by (intros o0 b J; apply FB; right; assumption).
        assert (PK' : forall o0 k, In o0 l -> o_peak o0 = Some k -> 0 <= k) by (intros o0 k J; apply PK; right; assumption).
        assert (E : inject_Z (Z.of_nat (List.length (o :: l))) == inject_Z (Z.of_nat (List.length l)) + 1).
        { cbn [List.length]. rewrite Nat2Z.inj_succ. unfold Z.succ. rewrite inject_Z_plus. reflexivity. }
        apply round in H. cbv zeta in H. destruct H as [(K & _)|(b & F & H)]; [discriminate|].
        pose proof (flux_is _ _ _ _ (fun _ => P o (or_introl eq_refl)) F) as F'.
        pose proof (FB o b (or_introl eq_refl) F') as PB.
        set (sat := p_saturation p (saturation_temperature floor (o_ambient o))) in *.
        assert (PS : 0 < sat) by apply S0.
        assert (RAT : b * margin <= sat -> 0 <= b / sat /\ b / sat <= 1 / margin).
        { intro L. split; [apply Qle_shift_div_l; lra|]. apply Qle_shift_div_r; [exact PS|].
          setoid_replace (1 / margin * sat) with (sat / margin) by (field; lra). apply Qle_shift_div_l; lra. }
        destruct H as [(_ & H)|(_ & [(K & _)|[(B & _ & H)|(B & _ & peak & isat & PKO & IS & [(K & _)|(L & H)])]])]; try discriminate.
        + destruct (IH _ _ P' FB' PK' H) as (A & B). rewrite E. unfold c in *. lra.
        + destruct (IH _ _ P' FB' PK' H) as (A & B'). rewrite E. rewrite (proj2 (lt_iff 0 sat) PS) in *.
          destruct (RAT B). unfold c in *. lra.
        + destruct (IH _ _ P' FB' PK' H) as (A & B'). rewrite E. rewrite (proj2 (lt_iff 0 sat) PS) in *.
          pose proof (I0 _ _ IS) as PI. rewrite (proj2 (lt_iff 0 isat) PI) in *.
          pose proof (PK o peak (or_introl eq_refl) PKO) as PP.
          assert (0 <= margin * peak / isat) by (apply Qle_shift_div_l; [exact PI|nra]).
          assert (margin * peak / isat <= 1) by (apply Qle_shift_div_r; [exact PI|lra]).
          destruct (RAT B). unfold c in *. lra. }
    destruct (G l 0 total P FB PK H) as (A & B). split; lra. }
  destruct l as [|o l]; [congruence|]. unfold mean in R. cbn [List.length] in R.
  assert (ES : s = Some (total / inject_Z (Z.of_nat (S (List.length l))))) by congruence.
  clear R. rewrite ES. eexists. split; [reflexivity|].
  assert (N : 0 < inject_Z (Z.of_nat (S (List.length l)))) by (unfold Qlt; cbn; lia).
  split; [apply Qle_shift_div_l; lra|]. apply Qle_shift_div_r; [exact N|]. cbn [List.length] in K. lra.
Qed.

(** With no operating point the candidate is kept and its score is not a number. *)
Theorem C167_no_point_refuted : forall r margin floor p,
  saturation_filter r margin floor p nil = Ok (true, None).
Proof. reflexivity. Qed.

(** A tagged choke whose windings carry the same current is kept whatever its flux. *)
Theorem C167_choke_refuted : forall r margin floor p l,
  is_inductor r = true -> l <> nil ->
  (forall o, In o l -> exempt r o /\ exists b, o_flux o = Some b) ->
  exists s, saturation_filter r margin floor p l = Ok (true, Some s) /\ s == 0.
Proof.
  intros r margin floor p l I NE H. unfold saturation_filter. rewrite I.
  assert (K : saturation_loop true (tagged_choke r) margin floor p l 0 = Ok (Some 0)).
  { clear NE. induction l as [|o l IH]; [reflexivity|]. cbn [saturation_loop bind].
    destruct (H o (or_introl eq_refl)) as (E & b & B). rewrite B. apply choke_exempt in E. rewrite E.
    cbn [negb andb]. apply IH. intros o' I0. apply H. right. exact I0. }
  rewrite K. cbn [bind]. destruct l as [|o l]; [congruence|]. eexists. split; [reflexivity|]. unfold Qdiv. lra.
Qed.

(** A transformer with a current waveform and no voltage, whose induced voltage cannot
    be had, passes with the best score there is. *)
Theorem C167_unknown_voltage_refuted : forall r margin floor p o,
  is_inductor r = false -> tagged_choke r = false -> physical p o ->
  o_voltage o = None -> o_waveform o = true -> o_induced o = None ->
  (forall t, 0 < p_saturation p t) ->
  exists s, saturation_filter r margin floor p [o] = Ok (true, Some s) /\ s == 0.
Proof.
  intros r margin floor p o I T (PT & PA & PW) V W N S0. unfold saturation_filter. rewrite I, T. cbn [saturation_loop andb].
  unfold transformer_flux. rewrite V, W, N. cbv zeta. replace (Qlt_bool 0 0) with false by reflexivity. cbn [andb bind negb].
  unfold flux_by_voltage. rewrite !qle_false by assumption. cbn [orb].
  set (b := 0 / _). set (t := saturation_temperature _ _).
  assert (B0 : b == 0) by (unfold b, Qdiv; lra). pose proof (S0 t) as St.
  rewrite (proj2 (lt_niff (p_saturation p t) (b * margin))) by (rewrite B0; lra).
  cbn [bind List.length mean]. eexists. split; [reflexivity|].
  rewrite (proj2 (lt_iff 0 (p_saturation p t)) St). rewrite B0. unfold Qdiv. lra.
Qed.

(** The flux density designs are sized to clears the gate, and stays under seven tenths. *)
Theorem C167_sizing : forall margin saturation b,
  0 < margin -> 0 <= saturation -> b <= allowed_flux margin saturation ->
  b * margin <= saturation /\ b <= (7 # 10) * saturation.
Proof.
  intros margin s b M S B. unfold allowed_flux, cmin in B.
  assert (IM : 1 / margin * margin == 1) by (field; lra).
  assert (0 < 1 / margin) by (apply Qlt_shift_div_l; lra).
  destruct (Qlt_bool (7 # 10) (1 / margin)) eqn:E.
  - apply lt_iff in E. split; nra.
  - apply lt_niff in E. split; nra.
Qed.

(** ** C168 *)

(** Every winding of every point: its current is known and shared out by its parallels it
    stays within the maximum. *)
Definition cool (maximum : Q) (windings : list positive) (e : list (option Q)) : Prop :=
  forall i n, nth_error windings i = Some n ->
    exists d, nth_error e i = Some (Some d) /\ d <= maximum * inject_Z (Zpos n).

Lemma density_le : forall d n maximum, d / inject_Z (Zpos n) <= maximum <-> d <= maximum * inject_Z (Zpos n).
Proof.
  intros. assert (P : 0 < inject_Z (Zpos n)) by reflexivity. split; intro H.
  - setoid_replace d with (d / inject_Z (Zpos n) * inject_Z (Zpos n)) by (field; lra).
    apply Qmult_le_compat_r; lra.
  - apply Qle_shift_div_r; assumption.
Qed.

Lemma windings_spec : forall maximum e ws k total r,
  windings_loop maximum e ws k total = Ok r ->
  (exists x, r = Some x) <->
  (forall i n, nth_error ws i = Some n -> exists d, nth_error e (k + i) = Some (Some d) /\ d <= maximum * inject_Z (Zpos n)).
Proof.
  intros maximum e. induction ws as [|n ws IH]; intros k total r H; cbn [windings_loop] in H.
  - inversion H; subst. split; [|eauto]. intros _ i n X. destruct i; discriminate.
  - destruct (nth_error e k) as [[d|]|] eqn:E; try discriminate. cbv zeta in H.
    destruct (Qlt_bool maximum (d / inject_Z (Zpos n))) eqn:L.
    + inversion H; subst. split; [intros (x & X); discriminate|]. intro A. exfalso.
      destruct (A 0%nat n eq_refl) as (d' & D & B). rewrite Nat.add_0_r, E in D. inversion D; subst.
      apply lt_iff in L. apply density_le in B. lra.
    + apply lt_niff in L. apply density_le in L. rewrite (IH _ _ _ H). split.
      * intros A i m M. destruct i as [|i].
        -- cbn in M. inversion M; subst. exists d. rewrite Nat.add_0_r. auto.
        -- cbn in M. destruct (A i m M) as (d' & D & B). exists d'. rewrite Nat.add_succ_r. auto.
      * intros A i m M. destruct (A (S i) m M) as (d' & D & B). exists d'. rewrite Nat.add_succ_r in D. auto.
Qed.

Lemma density_spec : forall maximum ws l total r,
  density_loop maximum ws l total = Ok r ->
  (exists x, r = Some x) <-> (forall e, In e l -> cool maximum ws e).
Proof.
  intros maximum ws. induction l as [|e l IH]; intros total r H; cbn [density_loop] in H.
  - inversion H; subst. split; [intros _ e []|eauto].
  - apply bind_ok in H. destruct H as (x & X & H). pose proof (windings_spec _ _ _ _ _ _ X) as W. cbn [Nat.add] in W.
    destruct x as [t|].
    + rewrite (IH _ _ H). destruct W as (W & _). pose proof (W (ex_intro _ t eq_refl)) as C. split.
      * intros A e' [E|I0]; [subst; exact C|apply A; exact I0].
      * intros A e' I0. apply A. right. exact I0.
    + inversion H; subst. split; [intros (x & K); discriminate|]. intro A. exfalso.
      destruct W as (_ & W). destruct (W (A e (or_introl eq_refl))) as (x & K). discriminate.
Qed.

(** A verdict, when there is one: kept exactly when the first point has one excitation
    per winding and every winding of every point is cool. *)
Theorem C168_verdict : forall maximum ws e l v s,
  density_filter maximum ws (e :: l) = Ok (v, s) ->
  (v = true <-> List.length ws = List.length e /\ forall x, In x (e :: l) -> cool maximum ws x).
Proof.
  intros maximum ws e l v s H. unfold density_filter in H.
  destruct (Nat.eqb (List.length ws) (List.length e)) eqn:L; cbn [negb] in H.
  - apply Nat.eqb_eq in L. apply bind_ok in H. destruct H as (x & X & H). pose proof (density_spec _ _ _ _ _ X) as D.
    destruct x as [t|]; inversion H; subst.
    + split; [|reflexivity]. intros _. split; [exact L|]. apply D. eauto.
    + split; [discriminate|]. intros (_ & A). apply D in A. destruct A as (x & K). discriminate.
  - apply Nat.eqb_neq in L. inversion H; subst. split; [discriminate|]. intros (K & _). contradiction.
Qed.

(** More conductors in parallel never lose the candidate. *)
Theorem C168_parallels : forall maximum ws ws' e l s,
  0 <= maximum -> Forall2 (fun n n' => (n <= n')%positive) ws ws' ->
  density_filter maximum ws (e :: l) = Ok (true, s) ->
  exists s', density_filter maximum ws' (e :: l) = Ok (true, s').
Proof.
  intros maximum ws ws' e l s M F H. pose proof (C168_verdict _ _ _ _ _ _ H) as V.
  destruct V as (V & _). destruct (V eq_refl) as (L & C). clear V H.
  assert (L' : List.length ws' = List.length ws).
  { clear -F. induction F; cbn; congruence. }
  assert (C' : forall x, In x (e :: l) -> cool maximum ws' x).
  { intros x X i n' N'. assert (K : exists n, nth_error ws i = Some n /\ (n <= n')%positive).
    { clear - F N'. revert i N'. induction F as [|a b ws ws' AB F IH]; intros i N'; [destruct i; discriminate|].
      destruct i; cbn in *; [inversion N'; subst; eauto|eauto]. }
    destruct K as (n & N & LE). destruct (C x X i n N) as (d & D & B). exists d. split; [exact D|].
    assert (inject_Z (Zpos n) <= inject_Z (Zpos n')) by (rewrite <- Zle_Qle; lia). nra. }
  unfold density_filter. rewrite (proj2 (Nat.eqb_eq _ _)) by congruence. cbn [negb].
  assert (K : exists t, density_loop maximum ws' (e :: l) 0 = Ok (Some t)).
  { clear - C'. generalize 0 as start. induction (e :: l) as [|x m IH]; intro start; [eexists; reflexivity|].
    cbn [density_loop].
    assert (W : exists t, windings_loop maximum x ws' 0 start = Ok (Some t)).
    { pose proof (C' x (or_introl eq_refl)) as C. unfold cool in C.
      assert (G : forall ws k start, (forall i n, nth_error ws i = Some n -> exists d, nth_error x (k + i) = Some (Some d) /\ d <= maximum * inject_Z (Zpos n)) ->
         exists t, windings_loop maximum x ws k start = Ok (Some t)).
      { clear. induction ws as [|n ws IH]; intros k start A; [eexists; reflexivity|]. cbn [windings_loop].
        destruct (A 0%nat n eq_refl) as (d & D & B). rewrite Nat.add_0_r in D. rewrite D. cbv zeta.
        rewrite (proj2 (lt_niff _ _) (proj2 (density_le _ _ _) B)). apply IH. intros i m M.
        destruct (A (S i) m M) as (d' & D' & B'). exists d'. rewrite Nat.add_succ_r in D'. auto. }
      apply G. exact C. }
    destruct W as (t & ->). cbn [bind]. apply IH. intros y Y. apply C'. right. exact Y. }
  destruct K as (t & ->). cbn [bind]. eexists. reflexivity.
Qed.

(** The score of a kept candidate: between nought and the number of windings. *)
Theorem C168_score : forall maximum ws e l s,
  0 < maximum -> (forall x d, In x (e :: l) -> In (Some d) x -> 0 <= d) ->
  density_filter maximum ws (e :: l) = Ok (true, s) ->
  exists x, s = Some x /\ 0 <= x <= inject_Z (Z.of_nat (List.length ws)).
Proof.
  intros maximum ws e l s M PD H. unfold density_filter in H.
  destruct (Nat.eqb (List.length ws) (List.length e)); cbn [negb] in H; [|discriminate].
  apply bind_ok in H. destruct H as (r & R & H). destruct r as [t|]; [|discriminate].
  assert (ES : s = mean t (List.length (e :: l))) by congruence. rewrite ES. clear H ES.
  assert (WS : forall x ws k start t, (forall d, In (Some d) x -> 0 <= d) ->
     windings_loop maximum x ws k start = Ok (Some t) -> start <= t <= start + inject_Z (Z.of_nat (List.length ws))).
  { clear - M. intros x. induction ws as [|n ws IH]; intros k start t PD H; cbn [windings_loop] in H.
    - inversion H; subst. cbn. change (inject_Z 0) with 0. lra.
    - destruct (nth_error x k) as [[d|]|] eqn:E; try discriminate. cbv zeta in H.
      pose proof (PD d (nth_error_In _ _ E)) as D0.
      set (q := d / inject_Z (Zpos n)) in *.
      assert (Q0 : 0 <= q) by (apply Qle_shift_div_l; [reflexivity|lra]).
      destruct (Qlt_bool maximum q) eqn:L; [discriminate|]. apply lt_niff in L.
      destruct (IH _ _ _ PD H) as (A & B).
      assert (0 <= q / maximum) by (apply Qle_shift_div_l; lra).
      assert (q / maximum <= 1) by (apply Qle_shift_div_r; lra).
      cbn [List.length]. rewrite Nat2Z.inj_succ. unfold Z.succ. rewrite inject_Z_plus. change (inject_Z 1) with 1. lra. }
  assert (G : forall m start t, (forall x d, In x m -> In (Some d) x -> 0 <= d) ->
     density_loop maximum ws m start = Ok (Some t) ->
     start <= t <= start + inject_Z (Z.of_nat (List.length m)) * inject_Z (Z.of_nat (List.length ws))).
  { clear - WS. induction m as [|x m IH]; intros start t PD H; cbn [density_loop] in H.
    - inversion H; subst. cbn [List.length Z.of_nat]. change (inject_Z 0) with 0. lra.
    - apply bind_ok in H. destruct H as (r & R & H). destruct r as [u|]; [|discriminate].
      destruct (WS _ _ _ _ _ (fun d => PD x d (or_introl eq_refl)) R) as (A & B).
      destruct (IH u t) as (C & D); [intros y d Y; apply PD; right; exact Y|exact H|].
      cbn [List.length]. rewrite Nat2Z.inj_succ. unfold Z.succ. rewrite inject_Z_plus. change (inject_Z 1) with 1.
      set (N := inject_Z (Z.of_nat (List.length ws))) in *. split; lra. }
  destruct (G _ _ _ PD R) as (A & B). unfold mean. cbn [List.length]. eexists. split; [reflexivity|].
  assert (N : 0 < inject_Z (Z.of_nat (S (List.length l)))) by (unfold Qlt; cbn; lia).
  cbn [List.length] in B.
  split; [apply Qle_shift_div_l; lra|apply Qle_shift_div_r; lra].
Qed.

(** Only the first point's number of excitations is looked at: a later point with one too
    few is read past its end. *)
Theorem C168_short_point_refuted : forall maximum ws w e x,
  (forall i n, nth_error ws i = Some n -> exists d, nth_error e i = Some (Some d) /\ d <= maximum * inject_Z (Zpos n)) ->
  (forall i n, nth_error (ws ++ [w]) i = Some n -> exists d, nth_error x i = Some (Some d) /\ d <= maximum * inject_Z (Zpos n)) ->
  List.length x = S (List.length ws) -> List.length e = List.length ws ->
  density_filter maximum (ws ++ [w]) [x; e] = UB "excitations_per_winding[windingIndex]".
Proof.
  intros maximum ws w e x E X LX LE. unfold density_filter.
  rewrite (proj2 (Nat.eqb_eq _ _)) by (rewrite app_length; cbn; lia). cbn [negb density_loop].
  assert (G : forall x ws k start, (forall i n, nth_error ws i = Some n -> exists d, nth_error x (k + i) = Some (Some d) /\ d <= maximum * inject_Z (Zpos n)) ->
         exists t, windings_loop maximum x ws k start = Ok (Some t)).
  { clear. intro x. induction ws as [|n ws IH]; intros k start A; [eexists; reflexivity|]. cbn [windings_loop].
    destruct (A 0%nat n eq_refl) as (d & D & B). rewrite Nat.add_0_r in D. rewrite D. cbv zeta.
    rewrite (proj2 (lt_niff _ _) (proj2 (density_le _ _ _) B)). apply IH. intros i m M.
    destruct (A (S i) m M) as (d' & D' & B'). exists d'. rewrite Nat.add_succ_r in D'. auto. }
  destruct (G x _ 0%nat 0 X) as (t & ->). cbn [bind].
  assert (U : forall ws k start, List.length e = (k + List.length ws)%nat ->
     (forall i n, nth_error ws i = Some n -> exists d, nth_error e (k + i) = Some (Some d) /\ d <= maximum * inject_Z (Zpos n)) ->
     windings_loop maximum e (ws ++ [w]) k start = UB "excitations_per_winding[windingIndex]").
  { clear. induction ws as [|n ws IH]; intros k start L A; cbn [app windings_loop].
    - rewrite (proj2 (nth_error_None e k)) by (cbn in L; lia). reflexivity.
    - destruct (A 0%nat n eq_refl) as (d & D & B). rewrite Nat.add_0_r in D. rewrite D. cbv zeta.
      rewrite (proj2 (lt_niff _ _) (proj2 (density_le _ _ _) B)). apply IH; [cbn in L; lia|]. intros i m M.
      destruct (A (S i) m M) as (d' & D' & B'). exists d'. rewrite Nat.add_succ_r in D'. auto. }
  rewrite (U ws 0%nat t); [reflexivity|lia|exact E].
Qed.

(** ** C169 *)

Lemma cmax_le : forall a b c, c <= a \/ c <= b -> c <= cmax a b.
Proof.
  intros a b c H. unfold cmax. destruct (Qlt_bool a b) eqn:E; [apply lt_iff in E|apply lt_niff in E]; destruct H; lra.
Qed.

Lemma energy_verdict : forall required l total, required * threshold_validity <= total ->
  fst (energy_loop required l total) = true /\ total <= snd (energy_loop required l total) /\
  (forall e, In e l -> e <= snd (energy_loop required l total)) /\
  (snd (energy_loop required l total) = total \/ In (snd (energy_loop required l total)) l).
Proof.
  intros required. induction l as [|e l IH]; intros total H; cbn [energy_loop].
  - cbn [fst snd]. repeat split; [lra| intros e []|left; reflexivity].
  - cbv zeta. assert (K : required * threshold_validity <= cmax total e) by (apply cmax_le; left; exact H).
    rewrite (proj2 (Qle_bool_iff _ _) K). destruct (IH _ K) as (A & B & C & D). split; [exact A|].
    split; [assert (total <= cmax total e) by (apply cmax_le; left; lra); lra|].
    split.
    + intros x [E|I0]; [subst; assert (x <= cmax total x) by (apply cmax_le; right; lra); lra|apply C; exact I0].
    + destruct D as [D|D]; [|right; right; exact D]. rewrite D. unfold cmax. destruct (Qlt_bool total e); [right; left; reflexivity|left; reflexivity].
Qed.

(** One operating point: kept exactly when nine tenths of the energy can be stored. *)
Theorem C169_one_point_partial : forall required e, 0 < required ->
  (fst (energy_filter required [e]) = true <-> (9 # 10) * required <= e).
Proof.
  intros required e P. unfold energy_filter, energy_loop. cbv zeta. unfold threshold_validity.
  destruct (Qle_bool (required * (9 # 10)) (cmax 0 e)) eqn:E; cbn [fst].
  - apply Qle_bool_iff in E. split; [|reflexivity]. intros _. unfold cmax in E. destruct (Qlt_bool 0 e); lra.
  - apply le_niff in E. split; [discriminate|]. intro H. exfalso.
    assert (e <= cmax 0 e) by (apply cmax_le; right; lra). lra.
Qed.

(** The points after the first never change the verdict: the largest energy met so far,
    not the energy at the point, is compared. *)
Theorem C169_later_points_refuted : forall required e l,
  fst (energy_filter required (e :: l)) = fst (energy_filter required [e]).
Proof.
  intros required e l. unfold energy_filter. cbn [energy_loop]. cbv zeta.
  destruct (Qle_bool (required * threshold_validity) (cmax 0 e)) eqn:E; [|reflexivity].
  apply Qle_bool_iff in E. destruct (energy_verdict required l _ E) as (A & _). rewrite A. reflexivity.
Qed.

(** So the order of the points decides: the same two points, kept one way round and
    dropped the other. *)
Theorem C169_order_refuted : forall required good bad,
  0 < required -> (9 # 10) * required <= good -> bad < (9 # 10) * required ->
  fst (energy_filter required [good; bad]) = true /\ fst (energy_filter required [bad; good]) = false.
Proof.
  intros required good bad P G B. rewrite (C169_later_points_refuted required good [bad]), (C169_later_points_refuted required bad [good]). split.
  - apply C169_one_point_partial; assumption.
  - destruct (fst (energy_filter required [bad])) eqn:E; [|reflexivity].
    apply C169_one_point_partial in E; [lra|exact P].
Qed.

(** What is true of a kept candidate: its score is the largest energy of all points, and
    some point stores what is needed. *)
Theorem C169_kept_partial : forall required e l s, 0 < required ->
  energy_filter required (e :: l) = (true, s) ->
  (9 # 10) * required <= s /\ (forall x, In x (e :: l) -> x <= s) /\ In s (e :: l).
Proof.
  intros required e l s P H. unfold energy_filter in H. cbn [energy_loop] in H. cbv zeta in H.
  destruct (Qle_bool (required * threshold_validity) (cmax 0 e)) eqn:E; [|discriminate].
  apply Qle_bool_iff in E. unfold threshold_validity in E.
  assert (ME : cmax 0 e = e) by (unfold cmax in *; destruct (Qlt_bool 0 e); [reflexivity|exfalso; lra]).
  rewrite ME in *.
  destruct (energy_verdict required l e) as (A & B & C & D); [unfold threshold_validity; lra|].
  rewrite H in *. cbn [fst snd] in *. split; [lra|]. split.
  - intros x [X|I0]; [subst; exact B|apply C; exact I0].
  - destruct D as [D|D]; [left; auto|right; exact D].
Qed.

(** ** C170 *)

(** Both filters see the same designs as transformers. *)
Theorem C170_one_mind : forall r, is_transformer r = negb (is_inductor r).
Proof.
  intros r. unfold is_transformer, is_inductor, minimum_only.
  destruct (windings_on_single_isolation_side (r_sides r)); [reflexivity|].
  destruct (r_topology r); [reflexivity|]. rewrite negb_involutive. reflexivity.
Qed.

(** All windings on one side: an inductor, whatever the converter is called. *)
Theorem C170_one_side : forall r s n, (2 <= n)%nat -> r_sides r = Some (repeat s n) -> is_inductor r = true.
Proof.
  intros r s n N H. unfold is_inductor, windings_on_single_isolation_side. rewrite H.
  destruct n as [|[|n]]; try lia. cbn [repeat].
  assert (K : forallb (fun x => Nat.eqb x s) (s :: repeat s n) = true).
  { apply forallb_forall. intros x X. apply Nat.eqb_eq. destruct X as [X|X]; [auto|]. apply repeat_spec in X. exact X. }
  rewrite K. reflexivity.
Qed.

(** A requirement, read as the band it stands for (plus or minus a quarter around a bare
    nominal; open ends where only one bound is given). *)
Definition in_band (d : dwt) (x : Q) : Prop :=
  match minimum d, nominal d, maximum d with
  | Some a, _, Some b => a <= x <= b
  | None, Some a, Some b => a <= x <= b
  | Some a, Some b, None => a <= x <= b
  | None, Some n, None => (3 # 4) * n <= x <= (5 # 4) * n
  | Some a, None, None => a < x
  | None, None, Some b => x < b
  | None, None, None => False
  end.

Lemma band : forall d x v, check_requirement d x = Ok v -> (v = true <-> in_band d x).
Proof.
  intros [mn nom mx] x v H. unfold check_requirement, in_band in *. cbn [minimum nominal maximum] in *.
  destruct mn as [a|], nom as [n|], mx as [b|];
    repeat match type of H with context [if Qlt_bool ?u ?w then Throw _ else _] => destruct (Qlt_bool u w); [discriminate|] end;
    inversion H; subst; rewrite ?andb_true_iff, ?Qle_bool_iff, ?lt_iff; unfold magnetizingInductanceThresholdValidity;
    try tauto; try (split; intro K; lra); split; try discriminate; tauto.
Qed.

Lemma ratios_spec : forall ds xs total v s, List.length xs = List.length ds ->
  ratios_loop ds xs total = Ok (v, s) ->
  (v = true <-> Forall2 in_band ds xs) /\
  (v = true -> total <= s /\ (s == total -> Forall2 (fun d x => forall n, nominal d = Some n -> x == n) ds xs)).
Proof.
  induction ds as [|d ds IH]; intros [|x xs] total v s L H; try discriminate; cbn [ratios_loop] in H.
  - inversion H; subst. split; [split; constructor|]. intros _. split; [lra|]. intros _. constructor.
  - apply bind_ok in H. destruct H as (ok & C & H). pose proof (band _ _ _ C) as B.
    destruct ok; cbn [negb] in H.
    + apply bind_ok in H. destruct H as (r & R & H).
      cbn [List.length] in L. destruct (IH xs _ _ _ (eq_add_S _ _ L) H) as (A & D).
      pose proof (Qabs_nonneg (r - x)) as NN. split.
      * rewrite A. split; intro K; [constructor; [apply B; reflexivity|exact K]|inversion K; assumption].
      * intro V. destruct (D V) as (D1 & D2). split; [lra|]. intro E.
        assert (Z0 : Qabs (r - x) == 0) by lra.
        constructor; [|apply D2; lra].
        intros n N. unfold resolve_dimensional_values in R. rewrite N in R.
        assert (r = n) by (destruct (minimum d), (maximum d); congruence). subst n.
        destruct (Qabs_Qle_condition (r - x) 0) as (K & _). destruct K; [lra|]. lra.
    + inversion H; subst. split; [|discriminate]. split; [discriminate|]. intro K. inversion K; subst. apply B. assumption.
Qed.

(** Turns ratios: kept exactly when there is a ratio per requirement and each is in its
    band; a score of nought means every nominal ratio is met exactly. *)
Theorem C170_ratios : forall ds n rest v s, ds <> nil ->
  ratios_filter ds (n :: rest) = Ok (v, s) ->
  (v = true <-> Forall2 in_band ds (map (fun k => inject_Z (Zpos n) / inject_Z (Zpos k)) rest)) /\
  (v = true -> 0 <= s /\
     (s == 0 -> Forall2 (fun d k => forall r, nominal d = Some r -> inject_Z (Zpos n) == r * inject_Z (Zpos k)) ds rest)).
Proof.
  intros ds n rest v s NE H. unfold ratios_filter in H. destruct ds as [|d ds]; [congruence|].
  cbn [turns_ratios] in H. set (xs := map _ rest) in *.
  destruct (Nat.eqb (List.length xs) (List.length (d :: ds))) eqn:L; cbn [negb] in H.
  - apply Nat.eqb_eq in L. destruct (ratios_spec _ _ _ _ _ L H) as (A & B). split; [exact A|].
    intro V. destruct (B V) as (P & Z0). split; [exact P|]. intro E. specialize (Z0 E).
    assert (K : Forall2 (fun d k => forall r, nominal d = Some r -> inject_Z (Zpos n) / inject_Z (Zpos k) == r) (d :: ds) rest).
    { revert Z0. unfold xs. clear. generalize (d :: ds). intro l. revert rest.
      induction l as [|y l IH]; intros [|k rest] H; inversion H; subst; constructor; auto. }
    revert K. clear. generalize (d :: ds). intro l. revert rest.
    induction l as [|y l IH]; intros [|k rest] H; inversion H; subst; constructor; auto.
    intros r R. rewrite <- (H3 r R). field. assert (0 < inject_Z (Zpos k)) by reflexivity. lra.
  - apply Nat.eqb_neq in L. inversion H; subst. split; [|discriminate]. split; [discriminate|].
    intro F. exfalso. apply L. clear -F. induction F; cbn; congruence.
Qed.

(** Inductance: with a requirement that applies, kept exactly when the inductance is known
    and in the band at every operating point: unbiased for a transformer, biased for
    an inductor. *)
Theorem C170_inductance : forall r unbiased biased v s,
  (is_some (minimum (r_inductance r)) || is_some (maximum (r_inductance r)) = true \/
   exists n, nominal (r_inductance r) = Some n /\ 0 < n) ->
  r_topology r <> Some COMMON_MODE_CHOKE -> r_topology r <> Some DIFFERENTIAL_MODE_CHOKE ->
  r_suppression r = false ->
  inductance_filter r unbiased biased = Ok (v, s) ->
  (v = true <-> Forall (fun x => exists y, x = Some y /\ in_band (r_inductance r) y)
                       (if is_inductor r then biased else unbiased)).
Proof.
  intros r unbiased biased v s Q0 T1 T2 SU H. unfold inductance_filter in H. cbv zeta in H.
  set (d := r_inductance r) in *.
  assert (Z0 : (negb (is_some (minimum d)) && negb (is_some (nominal d)) && negb (is_some (maximum d))
             || match nominal d with Some n => Qle_bool n 0 && negb (is_some (minimum d)) && negb (is_some (maximum d)) | None => false end
             || suppression r) = false).
  { assert (SF : suppression r = false).
    { unfold suppression. rewrite SU, orb_false_r. destruct (r_topology r) as [[]|]; try reflexivity; congruence. }
    rewrite SF, orb_false_r. destruct Q0 as [M|(n & N & P)].
    - destruct (minimum d), (nominal d) as [n|], (maximum d); cbn in *; try discriminate; rewrite ?andb_false_r; reflexivity.
    - rewrite N. rewrite (qle_false _ P). cbn. rewrite ?andb_false_r. reflexivity. }
  rewrite Z0 in H. rewrite C170_one_mind in H.
  assert (LE : (if negb (is_inductor r) then unbiased else biased) = (if is_inductor r then biased else unbiased)) by (destruct (is_inductor r); reflexivity).
  rewrite LE in H. set (l := if is_inductor r then biased else unbiased) in *. clearbody l. clear LE Z0.
  apply bind_ok in H. destruct H as (t & H & R).
  assert (G : forall l valid total t, inductance_loop d l valid total = Ok t ->
    match t with
    | None => ~ Forall (fun x => exists y, x = Some y /\ in_band d y) l
    | Some (w, _) => w = true <-> valid = true /\ Forall (fun x => exists y, x = Some y /\ in_band d y) l
    end).
  { clear. induction l as [|x l IH]; intros valid total t H; cbn [inductance_loop] in H.
    - inversion H; subst. split; [auto|tauto].
    - destruct x as [x|].
      + apply bind_ok in H. destruct H as (n & N & H). apply bind_ok in H. destruct H as (ok & K & H).
        pose proof (band _ _ _ K) as B. specialize (IH _ _ _ H). destruct t as [[w q]|].
        * rewrite IH, andb_true_iff, B. split.
          -- intros ((V & X) & F). split; [exact V|]. constructor; [eauto|exact F].
          -- intros (V & F). inversion F as [|? ? (y & E & Y) F']; subst. inversion E; subst. auto.
        * intro F. apply IH. inversion F; assumption.
      + inversion H; subst. intro F. inversion F as [|? ? (y & E & _) _]; discriminate. }
  specialize (G _ _ _ _ H). destruct t as [[w q]|]; inversion R; subst.
  - rewrite G. tauto.
  - split; [discriminate|]. intro F. contradiction.
Qed.

(** ** Witnesses *)

Definition boost : requirements := mkRequirements None (Some BOOST) (mk_dwt None (Some (1 # 100)) None) false false nil.
Definition inductor_part : part := mkPart (fun t => (1 # 2) - t / 1000) (fun t => Ok (10 - t / 50)) 20 (1 # 10000).
Definition full_load : point := mkPoint 40 (Some (3 # 10)) None true None 0 600000 (Some 6) false.
Definition half_load : point := mkPoint 110 (Some (2 # 10)) None true None 0 600000 (Some 3) false.

Example C167_witness :
  exists s, saturation_filter boost (6 # 5) 100 inductor_part [full_load; half_load] = Ok (true, Some s) /\
  (s > 1 # 2) /\
  saturation_filter boost 2 100 inductor_part [full_load; half_load] = Ok (false, Some 0) /\
  physical inductor_part full_load /\ physical inductor_part half_load.
Proof.
  eexists. split; [vm_compute; reflexivity|]. split; [reflexivity|]. split; [vm_compute; reflexivity|].
  repeat split.
Qed.

Definition llc : requirements := mkRequirements (Some [0; 1]%nat) (Some LLC) (mk_dwt None (Some (1 # 1000)) None) false false nil.
Definition blind : point := mkPoint 40 None None true None 0 600000 None false.
Example C167_unknown_witness :
  is_inductor llc = false /\ tagged_choke llc = false /\ physical inductor_part blind /\
  is_inductor (mkRequirements None (Some COMMON_MODE_CHOKE) (mk_dwt None None None) false false nil) = true.
Proof. repeat split. Qed.

Example C168_witness :
  exists s, density_filter maximum_current_density [1%positive; 2%positive]
    [[Some 5000000; Some 13000000]; [Some 1000000; Some 2000000]] = Ok (true, Some s) /\
  density_filter maximum_current_density [1%positive; 1%positive]
    [[Some 5000000; Some 13000000]; [Some 1000000; Some 2000000]] = Ok (false, Some 0) /\
  density_filter maximum_current_density [1%positive; 2%positive]
    [[Some 5000000; Some 13000000]; [Some 1000000]] = UB "excitations_per_winding[windingIndex]".
Proof. eexists. split; [vm_compute; reflexivity|]. split; vm_compute; reflexivity. Qed.

Example C169_witness : energy_filter 100 [95; 20] = (true, 95) /\ fst (energy_filter 100 [20; 95]) = false.
Proof. split; vm_compute; reflexivity. Qed.

Example C170_witness :
  exists s, ratios_filter [mk_dwt None (Some 2) None; mk_dwt (Some 3) None None] [20; 9; 5]%positive = Ok (true, s) /\
  0 < s /\ ratios_filter [mk_dwt None (Some 2) None] [20; 15]%positive = Ok (false, 0) /\
  exists t, inductance_filter boost [Some (1 # 50)] [Some (11 # 1000); Some (9 # 1000)] = Ok (true, Some t).
Proof.
  eexists. split; [vm_compute; reflexivity|]. split; [reflexivity|]. split; [vm_compute; reflexivity|].
  eexists. vm_compute. reflexivity.
Qed.

Print Assumptions C167_kept.
Print Assumptions C167_order.
Print Assumptions C167_score.
Print Assumptions C168_verdict.
Print Assumptions C169_later_points_refuted.
Print Assumptions C170_inductance.
