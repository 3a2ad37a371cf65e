(** What each turn and lead dissipates by skin and proximity effect, harmonic by
    harmonic (C96). *)
From Coq Require Import ZArith QArith List String Bool Lia Lra Lqa.
From Verif Require Import Base QAux LossModel LossSpec LossProofs LossProperties LossBreakdownProperties.
Import ListNotations.
Open Scope outcome_scope.
Open Scope string_scope.
Open Scope list_scope.
Open Scope Q_scope.

Section Losses.
Variable skin_model : winding -> ext -> Q -> Q -> Q -> outcome Q.
Variable field_losses : nat -> winding -> outcome (list (Q * Q) * option (list (Q * Q))).
Variable prune : operating_point -> outcome operating_point.
Variable has_waveform : current -> bool.

(** ** Vocabulary *)

(** h lists (watts per metre, frequency) for each harmonic of the current after the
    first: what the model of the wire gives for the part of the harmonic that the
    conductor carries and the DC losses per metre of a sine of that amplitude *)
Definition skin_metre (x : winding) (i : current) (T share : Q) (h : list (Q * Q)) : Prop :=
  exists amplitudes frequencies, c_harmonics i = Some (amplitudes, frequencies) /\
    List.length amplitudes = List.length frequencies /\
    List.length h = (List.length amplitudes - 1)%nat /\
    forall k a f, nth_error amplitudes (S k) = Some a -> nth_error frequencies (S k) = Some f ->
      0 < f /\ exists v y, v == ohm_per_metre x T * ((a * share) * (a * share) / 2) /\
        skin_model x (Some v) f (a * share) T = Ok y /\ nth_error h k = Some (y, f).

(** the losses of the lead of one conductor: nothing if it has no length *)
Definition lead_dissipates (c : coil) (l : list turn) (ds : list ext) (pruned : operating_point) (T : Q)
    (w : nat) (x : winding) (p : nat) (v : Q) : Prop :=
  (lead_metres c x p <= 0 /\ v == 0) \/
  (0 < lead_metres c x p /\ exists k t share i h,
     nth_error l k = Some t /\ in_branch x p t = true /\ nth_error ds k = Some (Some share) /\
     nth_error pruned w = Some (Some i) /\ skin_metre x i T share h /\
     v == Qsum (map fst h) * lead_metres c x p).

(** ** Proofs *)

Lemma skin_harmonics_ok : forall x dc T d l h, skin_harmonics skin_model x dc T d l = Ok h ->
  List.length h = List.length l /\
  forall k a f, nth_error l k = Some (a, f) -> 0 < f /\ exists y,
    skin_model x (escale (a * d * (a * d) / 2) dc) f (a * d) T = Ok y /\ nth_error h k = Some (y, f).
Proof.
  intros x dc T d l. induction l as [|[a f] l IH]; intros h H; cbn [skin_harmonics] in H.
  { injection H as <-. split; [reflexivity|]. intros [|k] ? ? E; discriminate. }
  destruct (Qle_bool f 0) eqn:F; [discriminate|]. apply Qle_bool_false' in F. step H. step H. injection H as <-.
  destruct (IH _ E0) as [L K]. split; [cbn; congruence|]. intros [|k] a' f' E'; cbn in E'.
  - injection E' as <- <-. split; [exact F|]. exists x0. split; [exact E|reflexivity].
  - destruct (K k a' f' E') as (P & y & Y & N). split; [exact P|]. exists y. auto.
Qed.

Lemma combine_tl : forall A B (l : list A) (r : list B) k, nth_error (tl (combine l r)) k = nth_error (combine l r) (S k).
Proof. intros A B l r k. destruct (combine l r); [now destruct k|reflexivity]. Qed.

Lemma combine_nth' : forall A B (l : list A) (r : list B) k a b,
  nth_error l k = Some a -> nth_error r k = Some b -> nth_error (combine l r) k = Some (a, b).
Proof.
  induction l as [|x l IH]; intros [|y r] [|k] a b Ha Hb; try discriminate; cbn in *; [congruence|auto].
Qed.

Lemma skin_per_meter_ok : forall x i T d h, 0 < ohm_per_metre x T ->
  skin_per_meter skin_model x i T d = Ok h -> skin_metre x i T d h.
Proof.
  intros x i T d h P H. unfold skin_per_meter in H. step H. rename x0 into dc.
  destruct (c_harmonics i) as [[am fr]|] eqn:Eh; [|discriminate].
  destruct (List.length am =? List.length fr)%nat eqn:L; cbn [negb] in H; [|discriminate]. apply Nat.eqb_eq in L.
  apply skin_harmonics_ok in H as [LH K]. exists am, fr. split; [exact Eh|]. split; [exact L|]. split.
  { rewrite LH. assert (List.length (tl (combine am fr)) = (List.length (combine am fr) - 1)%nat) as -> by (destruct (combine am fr); cbn; lia).
    rewrite combine_length. lia. }
  intros k a f Ha Hf. destruct (K k a f) as (F & y & Y & N).
  { rewrite combine_tl. now apply combine_nth'. }
  split; [exact F|]. apply per_meter_ok in E. destruct dc as [m|].
  - destruct E as [Em _]. exists (a * d * (a * d) / 2 * m), y. split; [rewrite Em; ring|]. cbn [escale] in Y. auto.
  - exfalso. unfold ohm_per_metre in P. rewrite E in P. unfold Qdiv in P. change (/ 0) with 0 in P. lra.
Qed.

Ltac parts := repeat match goal with |- _ /\ _ => split end; try assumption; try reflexivity.

(** stages of the calculation, turn by turn *)
Lemma skin_loop_each : forall c op T l es ds es' q, List.length es = List.length l ->
  skin_loop skin_model c op T l es ds = Ok (es', q) ->
  forall n t e', nth_error l n = Some t -> nth_error es' n = Some e' ->
  exists w x i d len h, winding_index c (t_winding t) = Ok w /\ nth_error (windings c) w = Some x /\
    nth_error op w = Some (Some i) /\ nth_error ds n = Some (Some d) /\ t_length t = Some len /\
    skin_per_meter skin_model x i T d = Ok h /\ e_skin e' = Some (over_length len h).
Proof.
  intros c op T l. induction l as [|t l IH]; intros es ds es' q L H n t' e' Ht He.
  { destruct n; discriminate. }
  destruct es as [|e es]; [discriminate|]. destruct ds as [|d ds]; [discriminate|]. cbn [skin_loop] in H.
  step H. rename x into w. step H. step H. rename x0 into i. step H. rename x0 into dv. step H. rename x0 into len.
  step H. rename x0 into h. step H. destruct x0 as [es1 q1]. injection H as <- _. cbn [fst] in He.
  destruct n as [|n]; cbn in Ht, He.
  - injection Ht as <-. injection He as <-. exists w, x, i, dv, len, h. split; [exact E|].
    unfold wire_of in E0. destruct (nth_error (windings c) w) eqn:Ew; [|discriminate]. injection E0 as ->.
    unfold current_of in E1. destruct (nth_error op w) as [[i'|]|] eqn:Ei; try discriminate. injection E1 as ->.
    unfold number in E2. destruct d as [d|]; [|discriminate]. injection E2 as ->.
    unfold length_of in E3. destruct (t_length t) eqn:El; [|discriminate]. injection E3 as ->. parts.
  - cbn in L. injection L as L. exact (IH es ds es1 q1 L E5 n t' e' Ht He).
Qed.

Lemma proximity_loop_each : forall c l i0 es es' q, List.length es = List.length l ->
  proximity_loop field_losses c l i0 es = Ok (es', q) ->
  forall n t e', nth_error l n = Some t -> nth_error es' n = Some e' ->
  exists w x len f h, winding_index c (t_winding t) = Ok w /\ nth_error (windings c) w = Some x /\
    t_length t = Some len /\ field_losses (i0 + n) x = Ok f /\ proximity_of_turn len f = Ok h /\ e_proximity e' = Some h.
Proof.
  intros c l. induction l as [|t l IH]; intros i0 es es' q L H n t' e' Ht He.
  { destruct n; discriminate. }
  destruct es as [|e es]; [discriminate|]. cbn [proximity_loop] in H.
  step H. rename x into w. step H. step H. rename x0 into len. step H. rename x0 into f. step H. rename x0 into h.
  step H. destruct x0 as [es1 q1]. injection H as <- _. cbn [fst] in He. destruct n as [|n]; cbn in Ht, He.
  - injection Ht as <-. injection He as <-. exists w, x, len, f, h. split; [exact E|].
    unfold wire_of in E0. destruct (nth_error (windings c) w) eqn:Ew; [|discriminate]. injection E0 as ->.
    unfold length_of in E1. destruct (t_length t) eqn:El; [|discriminate]. injection E1 as ->.
    rewrite Nat.add_0_r. parts.
  - cbn in L. injection L as L. specialize (IH (S i0) es es1 q1 L E4 n t' e' Ht He). now rewrite Nat.add_succ_comm in IH.
Qed.

Lemma each_turn : forall c op T o l n t e, distinct c ->
  calculate_losses skin_model field_losses c prune has_waveform op T = Ok o -> turns c = Some l ->
  nth_error l n = Some t -> nth_error (per_turn o) n = Some e ->
  exists pruned w x i d len h f g, prune op = Ok pruned /\ nth_error (windings c) w = Some x /\ w_name x = t_winding t /\
    nth_error pruned w = Some (Some i) /\ nth_error (divider_of_turn o) n = Some (Some d) /\ t_length t = Some len /\
    skin_metre x i T d h /\ e_skin e = Some (over_length len h) /\
    field_losses n x = Ok f /\ proximity_of_turn len f = Ok g /\ e_proximity e = Some g.
Proof.
  intros c op T o l n t e D H ET Ht He. unfold calculate_losses in H. step H. rename x into o1. rename E into EO.
  step H. rename x into o2. rename E into ES. step H. rename x into o3. rename E into EP. rename H into EC.
  destruct (ohmic_core c op T o1 D EO) as (l' & ET' & L1 & _ & _ & _ & _ & _ & EX & _ & W & K & _).
  rewrite ET in ET'. injection ET' as <-.
  unfold skin_losses in ES. rewrite ET, EX in ES.
  destruct op as [|[i0|] op']; try discriminate. destruct (negb (has_waveform i0)); [discriminate|].
  step ES. rename x into pruned. step ES. destruct x as [t2 s2]. step ES. rename x into len.
  step ES. destruct x as [ws lead]. injection ES as <-.
  unfold proximity_losses in EP. rewrite ET in EP. cbn [per_turn fst] in EP. step EP. destruct x as [t3 s3].
  injection EP as <-. unfold combine_turn_losses in EC. rewrite ET in EC.
  cbn [per_turn fst] in EC. step EC. rename x into ll. step EC. rename x into ss. step EC. rename x into wws. injection EC as <-.
  cbn [per_turn divider_of_turn fst snd] in He |- *.
  destruct (skin_loop_ok _ _ _ _ _ _ _ _ _ L1 E0) as [A1 _].
  assert (L2 : List.length t2 = List.length l) by (rewrite <- L1; symmetry; eapply Forall2_length; eauto).
  destruct (proximity_loop_ok _ _ _ _ _ _ _ L2 E3) as [A2 _].
  assert (G : forall a b k e, Forall2 (fun e e' => e_name e' = e_name e /\ e_ohmic e' = e_ohmic e /\
      e_skin e' = e_skin e /\ exists s, e_proximity e' = Some s) a b -> nth_error b k = Some e ->
      exists e0, nth_error a k = Some e0 /\ e_skin e = e_skin e0).
  { clear. intros a b k e F. revert k. induction F as [|x y a b (_ & _ & E & _) F IH]; intros [|k] Hk; try discriminate; cbn in *.
    - injection Hk as <-. exists x. auto.
    - auto. }
  destruct (G _ _ _ _ A2 He) as (e2 & He2 & Es).
  destruct (skin_loop_each _ _ _ _ _ _ _ _ L1 E0 n t e2 Ht He2) as (w & x & i & d & ln & h & Iw & Hx & Hi & Hd & Hl & Hh & Hs).
  destruct (proximity_loop_each _ _ _ _ _ _ L2 E3 n t e Ht He) as (w' & x' & ln' & f & g & Iw' & Hx' & Hl' & Hf & Hg & Hp).
  rewrite Iw in Iw'. injection Iw' as <-. rewrite Hx in Hx'. injection Hx' as <-. rewrite Hl in Hl'. injection Hl' as <-.
  pose proof Iw as Iw2. apply winding_index_ok in Iw2 as (x2 & Hx2 & En). rewrite Hx in Hx2. injection Hx2 as <-.
  destruct (K n t Ht) as (w2 & x3 & p & I & R & d2 & q & r & Iw3 & Hx3 & _ & _ & _ & _ & _ & _ & _ & _ & _ & _ & _ & m & _ & _ & PM).
  rewrite Iw in Iw3. injection Iw3 as <-. rewrite Hx in Hx3. injection Hx3 as <-.
  exists pruned, w, x, i, d, ln, h, f, g. do 6 (split; [assumption|]).
  split; [eapply skin_per_meter_ok; eassumption|]. split; [congruence|]. parts.
Qed.

(** ** C96 *)

(** the skin effect losses of a turn: nothing for the first harmonic, and for each
    other harmonic of the pruned current of its winding what the model of the wire
    gives per metre for the turn's share, times its length *)
Theorem C96_turn_skin : forall c op T o l n t e, distinct c ->
  calculate_losses skin_model field_losses c prune has_waveform op T = Ok o -> turns c = Some l ->
  nth_error l n = Some t -> nth_error (per_turn o) n = Some e ->
  exists pruned w x i share len h, prune op = Ok pruned /\
    nth_error (windings c) w = Some x /\ w_name x = t_winding t /\ nth_error pruned w = Some (Some i) /\
    nth_error (divider_of_turn o) n = Some (Some share) /\ t_length t = Some len /\
    skin_metre x i T share h /\
    e_skin e = Some ((0, 0) :: map (fun p => (snd p, fst p * len)) h).
Proof.
  intros c op T o l n t e D H ET Ht He.
  destruct (each_turn c op T o l n t e D H ET Ht He) as (pr & w & x & i & d & len & h & f & g & A1 & A2 & A3 & A4 & A5 & A6 & A7 & A8 & _).
  exists pr, w, x, i, d, len, h. do 7 (split; [assumption|]). rewrite A8. unfold over_length. do 2 f_equal.
  apply map_ext. intros [y fr]. reflexivity.
Qed.

(** the proximity effect losses of a turn: nothing for the first harmonic, and for
    each harmonic of the field at the turn its losses per metre times the length,
    half of the length for each crossing when the turn crosses the plane twice *)
Theorem C96_turn_proximity : forall c op T o l n t e, distinct c ->
  calculate_losses skin_model field_losses c prune has_waveform op T = Ok o -> turns c = Some l ->
  nth_error l n = Some t -> nth_error (per_turn o) n = Some e ->
  exists x len first second g, In x (windings c) /\ w_name x = t_winding t /\ t_length t = Some len /\
    field_losses n x = Ok (first, second) /\ e_proximity e = Some ((0, 0) :: g) /\
    List.length g = List.length first /\
    match second with
    | None => forall k y f, nth_error first k = Some (y, f) -> exists v, nth_error g k = Some (f, v) /\ v == y * len
    | Some s => List.length s = List.length first /\
        forall k y f z f', nth_error first k = Some (y, f) -> nth_error s k = Some (z, f') ->
          exists v, nth_error g k = Some (f, v) /\ v == (y + z) / 2 * len
    end.
Proof.
  intros c op T o l n t e D H ET Ht He.
  destruct (each_turn c op T o l n t e D H ET Ht He) as (pr & w & x & i & d & len & h & f & g & A1 & A2 & A3 & A4 & A5 & A6 & A7 & A8 & A9 & A10 & A11).
  destruct f as [first second]. unfold proximity_of_turn in A10. cbn [fst snd] in A10.
  destruct second as [s|].
  - destruct (List.length s =? List.length first)%nat eqn:L; cbn [negb] in A10; [|discriminate]. apply Nat.eqb_eq in L.
    injection A10 as <-. eexists x, len, first, (Some s), _. split; [eapply nth_error_In; eauto|]. do 3 (split; [assumption|]).
    split; [exact A11|]. split; [rewrite map_length, combine_length; lia|]. split; [exact L|].
    intros k y fr z fr' Hy Hz. rewrite (map_nth_error _ _ _ (combine_nth' _ _ _ _ _ _ _ Hy Hz)).
    eexists. split; [reflexivity|]. field.
  - injection A10 as <-. unfold over_length in A11. eexists x, len, first, None, _. split; [eapply nth_error_In; eauto|]. do 3 (split; [assumption|]).
    split; [exact A11|]. split; [apply map_length|]. intros k y fr Hy. rewrite (map_nth_error _ _ _ Hy).
    eexists. split; [reflexivity|]. reflexivity.
Qed.

Lemma divider_of_ok : forall c l ds w x p d, distinct c -> nth_error (windings c) w = Some x ->
  divider_of c l ds w p = Some d ->
  exists k t, nth_error l k = Some t /\ in_branch x p t = true /\ nth_error ds k = Some d.
Proof.
  intros c l. induction l as [|t l IH]; intros ds w x p d D Hx H; [discriminate|]. destruct ds as [|d0 ds]; [discriminate|].
  cbn [divider_of] in H. destruct (divider_of c l ds w p) as [d'|] eqn:E.
  - injection H as ->. destruct (IH ds w x p d D Hx E) as (k & t' & A & B & C). exists (S k), t'. auto.
  - destruct (winding_index c (t_winding t)) as [w'| | |] eqn:Ew; try discriminate.
    destruct (Nat.eqb w' w && (t_parallel t =? Z.of_nat p)%Z) eqn:B; [|discriminate]. injection H as ->.
    exists 0%nat, t. split; [reflexivity|]. split; [|reflexivity]. unfold in_branch.
    now rewrite <- (same_index c w x (t_winding t) D Hx w' Ew).
Qed.

Lemma Qle_bool_lead : forall a b, a == b -> Qle_bool a 0 = Qle_bool b 0.
Proof.
  intros a b E. destruct (Qle_bool a 0) eqn:A, (Qle_bool b 0) eqn:B; auto; exfalso.
  - apply Qle_bool_iff in A. apply Qle_bool_false' in B. lra.
  - apply Qle_bool_iff in B. apply Qle_bool_false' in A. lra.
Qed.

Definition weight_of (a : option (list (Q * Q))) : Q := match a with Some l => watts l | None => 0 end.

Lemma lead_loop_ok : forall c op T len l ds x w, distinct c -> connection_length c = Ok len ->
  nth_error (windings c) w = Some x -> ((0 < w_parallels x)%nat -> 0 < ohm_per_metre x T) ->
  forall ps acc r, NoDup ps -> (forall p, In p ps -> (p < w_parallels x)%nat) ->
  lead_loop skin_model c op T len l ds x w ps acc = Ok r ->
  exists g : nat -> Q, (forall p, In p ps -> lead_dissipates c l ds op T w x p (g p)) /\
    weight_of r == weight_of acc + Qsum (map g ps).
Proof.
  intros c op T len l ds x w D CL Hx PM. induction ps as [|p ps IH]; intros acc r N B H; cbn [lead_loop] in H.
  { injection H as <-. exists (fun _ => 0). split; [intros p []|]. cbn. ring. }
  inversion N as [|? ? Np Nl]; subst.
  assert (Lp : (p < w_parallels x)%nat) by (apply B; now left).
  pose proof (connection_length_ok c len D CL w x p Hx Lp) as EL.
  assert (Bl : forall q, In q ps -> (q < w_parallels x)%nat) by (intros q I; apply B; now right).
  assert (EXT : forall (g : nat -> Q) v, map (fun q => if Nat.eqb q p then v else g q) ps = map g ps).
  { intros g v. apply map_ext_in. intros q I. destruct (Nat.eqb_spec q p) as [->|]; [contradiction|reflexivity]. }
  destruct (Qle_bool (len w p) 0) eqn:LE.
  - destruct (IH acc r Nl Bl H) as (g & G & S'). exists (fun q => if Nat.eqb q p then 0 else g q). split.
    + intros q [<-|I].
      * rewrite Nat.eqb_refl. left. rewrite (Qle_bool_lead _ _ EL) in LE. apply Qle_bool_iff in LE. split; [exact LE|reflexivity].
      * destruct (Nat.eqb_spec q p) as [->|]; [contradiction|auto].
    + cbn [map Qsum]. rewrite Nat.eqb_refl, EXT, S'. ring.
  - step H. rename x0 into i. destruct (divider_of c l ds w p) as [d|] eqn:Ed; [|discriminate].
    step H. rename x0 into dv. step H. rename x0 into h. step H. rename x0 into a.
    destruct (IH (Some a) r Nl Bl H) as (g & G & S').
    set (v := Qsum (map fst h) * lead_metres c x p).
    exists (fun q => if Nat.eqb q p then v else g q). split.
    + intros q [<-|I].
      * rewrite Nat.eqb_refl. right. rewrite (Qle_bool_lead _ _ EL) in LE. apply Qle_bool_false' in LE. split; [exact LE|].
        unfold number in E0. destruct d as [d|]; [|discriminate]. injection E0 as ->.
        destruct (divider_of_ok c l ds w x p (Some dv) D Hx Ed) as (k & t & A1 & A2 & A3).
        unfold current_of in E. destruct (nth_error op w) as [[i'|]|] eqn:Ei; try discriminate. injection E as ->.
        exists k, t, dv, i, h. do 4 (split; [assumption || reflexivity|]). split; [|reflexivity].
        apply skin_per_meter_ok; [apply PM; lia|assumption].
      * destruct (Nat.eqb_spec q p) as [->|]; [contradiction|auto].
    + cbn [map Qsum]. rewrite Nat.eqb_refl, EXT, S'. cbn [weight_of]. rewrite (accumulate_watts _ _ _ E2).
      assert (W : watts (map (fun '(y, f) => (f, y * len w p)) h) == v).
      { unfold v. rewrite <- EL. unfold watts. clear. induction h as [|[y f] h IH]; cbn; [ring|]. rewrite IH. ring. }
      rewrite W. destruct acc as [acc|]; cbn [weight_of]; [ring|]. rewrite zeros_watts. ring.
Qed.

Lemma leads_loop_ok : forall c op T len l ds, distinct c -> connection_length c = Ok len ->
  forall xs w es ws lead, List.length es = List.length xs ->
  (forall j x, nth_error xs j = Some x -> nth_error (windings c) (w + j) = Some x) ->
  (forall x, In x xs -> (0 < w_parallels x)%nat -> 0 < ohm_per_metre x T) ->
  leads_loop skin_model c op T len l ds xs w es = Ok (ws, lead) ->
  exists g : nat -> nat -> Q,
    (forall j x p, nth_error xs j = Some x -> (p < w_parallels x)%nat ->
       lead_dissipates c l ds op T (w + j) x p (g (w + j)%nat p)) /\
    lead == Qsum (map (fun '(j, x) => Qsum (map (g j) (seq 0 (w_parallels x)))) (combine (seq w (List.length xs)) xs)).
Proof.
  intros c op T len l ds D CL. induction xs as [|x xs IH]; intros w es ws lead LE HW PM H.
  { destruct es; [|discriminate]. cbn in H. injection H as _ <-. exists (fun _ _ => 0). split; [intros [|j] ? ? E; discriminate|reflexivity]. }
  destruct es as [|e es]; [discriminate|]. cbn [leads_loop] in H. step H. rename x0 into a. step H. destruct x0 as [ws' lead'].
  cbn in LE. injection LE as LE.
  assert (Hx : nth_error (windings c) w = Some x) by (rewrite <- (Nat.add_0_r w); apply HW; reflexivity).
  destruct (IH (S w) es ws' lead' LE) as (g & G & S').
  { intros j y Hy. rewrite Nat.add_succ_comm. now apply HW. }
  { intros y I. apply PM. now right. }
  { exact E0. }
  assert (BB : forall p, In p (seq 0 (w_parallels x)) -> (p < w_parallels x)%nat) by (intros p I; apply in_seq in I; lia).
  destruct (lead_loop_ok c op T len l ds x w D CL Hx (PM x (or_introl eq_refl)) _ _ _ (seq_NoDup _ _) BB E) as (g0 & G0 & S0).
  exists (fun j => if Nat.eqb j w then g0 else g j). split.
  - intros [|j] y p Hy Hp.
    + cbn in Hy. injection Hy as <-. rewrite Nat.add_0_r, Nat.eqb_refl. apply G0. apply in_seq. lia.
    + cbn in Hy. specialize (G j y p Hy Hp). rewrite Nat.add_succ_comm in G.
      destruct (Nat.eqb_spec (w + S j) w); [lia|exact G].
  - cbn [List.length seq combine map Qsum]. rewrite Nat.eqb_refl.
    assert (M : map (fun '(j, x) => Qsum (map (if Nat.eqb j w then g0 else g j) (seq 0 (w_parallels x)))) (combine (seq (S w) (List.length xs)) xs)
      = map (fun '(j, x) => Qsum (map (g j) (seq 0 (w_parallels x)))) (combine (seq (S w) (List.length xs)) xs)).
    { apply map_ext_in. intros [j y] I. apply in_combine_l in I. apply in_seq in I. destruct (Nat.eqb_spec j w); [lia|reflexivity]. }
    rewrite M, <- S'. cbn [weight_of] in S0. rewrite Qplus_0_l in S0.
    destruct a as [h|]; injection H as _ <-; cbn [weight_of snd] in *; [rewrite sum_losses_watts|]; rewrite <- S0; ring.
Qed.

(** the total is the ohmic losses, plus skin and proximity effect in all the turns,
    plus skin effect in the leads of all the conductors *)
Theorem C96_total : forall c op T o, distinct c ->
  calculate_losses skin_model field_losses c prune has_waveform op T = Ok o ->
  exists o1 pruned l q q1 skin proximity lead, ohmic_losses c op T = Ok o1 /\ prune op = Ok pruned /\ turns c = Some l /\
    total o = Some q /\ total o1 = Some q1 /\
    amounts skin_part (per_turn o) skin /\ amounts proximity_part (per_turn o) proximity /\
    (forall w x p, nth_error (windings c) w = Some x -> (p < w_parallels x)%nat ->
       lead_dissipates c l (divider_of_turn o) pruned T w x p (lead w p)) /\
    q == q1 + skin + proximity +
      Qsum (map (fun '(w, x) => Qsum (map (lead w) (seq 0 (w_parallels x))))
        (combine (seq 0 (List.length (windings c))) (windings c))).
Proof.
  intros c op T o D H.
  destruct (stages _ _ _ _ c op T o D H) as (l & o1 & pr & len & ws & lead & ET & EO & EP & CLen & LL & L1 & L2 & FF & FO & _ & _ & ED & (q1 & q & Eq1 & Eq & Vq) & _).
  destruct (ohmic_core c op T o1 D EO) as (l' & ET' & _ & _ & _ & LW & _ & _ & _ & _ & W & _).
  rewrite ET in ET'. injection ET' as <-.
  assert (SP : forall e, In e (per_turn o) -> skin_part e <> None /\ proximity_part e <> None).
  { clear -FF. induction FF as [|a b x y (_ & _ & A & B) F IH]; intros e Ie; [destruct Ie|].
    destruct Ie as [<-|Ie]; [|auto]. unfold skin_part, proximity_part.
    destruct (e_skin b), (e_proximity b); try congruence. split; discriminate. }
  destruct (leads_loop_ok c pr T len l (divider_of_turn o1) D CLen (windings c) 0 (per_winding o1) ws lead LW) as (g & G & S').
  { auto. }
  { intros x I Hp. apply In_nth_error in I as (w & Hw). destruct (W w x Hw) as (P & _). apply (P 0%nat Hp). }
  { exact LL. }
  eexists o1, pr, l, q, q1, _, _, g. do 5 (split; [assumption|]).
  split; [apply amounts_part; intros e Ie; now apply SP|].
  split; [apply amounts_part; intros e Ie; now apply SP|].
  split; [intros w x p Hx Hp; rewrite ED; exact (G w x p Hx Hp)|].
  rewrite Vq, S'. ring.
Qed.

End Losses.

(** ** Witness *)

(** the secondary crosses the plane twice *)
Definition field1 (k : nat) (x : winding) : outcome (list (Q * Q) * option (list (Q * Q))) :=
  Ok ([(1 # 100, 100000)], if String.eqb (w_name x) (w_name wv) then Some [(3 # 100, 100000)] else None).

Example C96_witness : exists o q,
  calculate_losses skin0 field1 routed (fun o => Ok o) (fun _ => true) op0 20 = Ok o /\ distinct routed /\
  turns routed = Some lu /\ (exists x p, In x (windings routed) /\ (p < w_parallels x)%nat /\ 0 < lead_metres routed x p) /\
  option_map (fun e => option_map (map (fun p => (fst p, Qred (snd p)))) (e_proximity e)) (nth_error (per_turn o) 4)
    = Some (Some [(0, 0); (100000, q)]) /\
  (match t_length tv with Some len => q == (2 # 100) * len | None => False end) /\
  match total o, elements_total (per_turn o) with Some a, Some b => b < a | _, _ => False end.
Proof.
  eexists _, _. split; [vm_compute; reflexivity|].
  split; [unfold distinct; cbn; repeat constructor; cbn; intuition discriminate|]. split; [reflexivity|].
  split; [exists wu, 0%nat; split; [now left|]; split; [vm_compute; lia|vm_compute; reflexivity]|].
  split; [vm_compute; reflexivity|]. split; vm_compute; reflexivity.
Qed.

Print Assumptions C96_turn_skin.
Print Assumptions C96_turn_proximity.
Print Assumptions C96_total.
