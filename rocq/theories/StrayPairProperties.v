(** C199 to C202: capacitances between windings. *)
From Coq Require Import QArith Qabs List Bool String ZArith Lia Lqa.
From Verif Require Import Base QAux StrMap StrayModel StrayProperties.
Import ListNotations.
Local Open Scope Q_scope.

(** * C199: the loop on the floating potential *)
Lemma small_nonneg : forall v3, 0 <= (1 # 1000) * cmax (Qabs v3) smallest_double.
Proof. intro v3. pose proof (cmax_ge_l (Qabs v3) smallest_double). pose proof (Qabs_nonneg v3). lra. Qed.
Lemma still : forall v, moved v (Some v) = false.
Proof.
  intro v. unfold moved. apply Qlt_bool_false. assert (E : Qabs (v - v) == 0) by (assert (v - v == 0) by ring; rewrite H; reflexivity).
  rewrite E. apply small_nonneg.
Qed.
Lemma settle_stop : forall fuel sc a b v c last, moved v c = false -> settle fuel sc a b false v c last = Ok last.
Proof. intros [|f] sc a b v c last H; cbn [settle orb]; rewrite H; reflexivity. Qed.

Definition same_winding (a b : winding) : bool := String.eqb (wname a) (wname b).
(** The energy of one pass at the potential [v3]. *)
Definition pass_energy (sc : scene) (a b : winding) (v3 : Q) : Q :=
  rows_energy (pair_rows sc (same_winding a b) v3 (counted sc (wname a) (wname b))) +
  match core sc with
  | Some cc => if same_winding a b then self_energy (core_elements sc cc (wname a)) else 0
  | None => 0
  end.
Definition tops (sc : scene) (a b : winding) : option (Q * Q) :=
  match largest (map (volt sc) (indexes sc (wname a))), smallest (map (second_volt sc (same_winding a b)) (indexes sc (wname b))) with
  | Some hi, Some lo => Some (hi, lo)
  | _, _ => None
  end.
(** Where the potential goes. *)
Definition target (a b : winding) (hi lo : Q) : Q :=
  Qabs (inject_Z (wturns a) / inject_Z (wturns b) * hi + Qabs lo) * (1 # 2).
Definition pass_result (sc : scene) (a b : winding) (v3 hi lo : Q) : outcome settled :=
  let e := pass_energy sc a b v3 in
  let d := hi - lo + v3 in
  let pr := pair_rows sc (same_winding a b) v3 (counted sc (wname a) (wname b)) in
  if Qeq_bool e 0 then Ok {| capacity := 0; shift := v3; rows := pr |}
  else if Qeq_bool d 0 then Throw "NaNResult"
  else Ok {| capacity := e * 2 / (d * d); shift := v3; rows := pr |}.

Lemma next_eq : forall e d ratio hi lo, ~ e == 0 -> ~ d == 0 ->
  (let '(_, _, m13, _, m23, m33) := multipole (e * 2 / (d * d)) ratio in
   Qred (Qabs (- (m13 * hi + m23 * Qabs lo) / m33))) = Qred (Qabs (ratio * hi + Qabs lo) * (1 # 2)).
Proof.
  intros e d ratio hi lo E D. cbn [multipole]. apply Qred_complete.
  set (c0 := e * 2 / (d * d)). assert (C : ~ c0 == 0).
  { unfold c0. intro Z. apply E. assert (X : e == e * 2 / (d * d) * (d * d) * (1 # 2)) by (field; exact D). rewrite X, Z. ring. }
  clearbody c0.
  assert (X : - (2 * ratio * (c0 / 6) * hi + 2 * (c0 / 6) * Qabs lo) / (c0 / 3 + c0 / 6 + c0 / 6) == - ((ratio * hi + Qabs lo) * (1 # 2))).
  { field. repeat split; try exact C. intro Z. apply C. lra. }
  rewrite X, Qabs_opp, Qabs_Qmult. reflexivity.
Qed.

Lemma settle_pass : forall f sc a b first v3 last hi lo, counted sc (wname a) (wname b) <> [] -> tops sc a b = Some (hi, lo) ->
  first = true \/ moved v3 (Some v3) = true -> 
  settle (S f) sc a b true 0 (Some v3) last = 
    bind (pass_result sc a b v3 hi lo) (fun s =>
      settle f sc a b false v3
        (if same_winding a b then Some v3
         else if Qeq_bool (pass_energy sc a b v3) 0 || Qeq_bool (hi - lo + v3) 0 then None
         else Some (Qred (target a b hi lo))) s).
Proof.
  intros f sc a b first v3 last hi lo N T _. cbn [settle orb]. unfold tops in T. unfold pass_result.
  fold (same_winding a b) in *. fold (pass_energy sc a b v3).
  destruct (largest _) as [h|] eqn:EH; [|discriminate]. destruct (smallest _) as [l|] eqn:EL; [|discriminate]. injection T as -> ->.
  destruct (counted sc (wname a) (wname b)) as [|x cs] eqn:EC; [contradiction|].
  change (same_winding a b) with (String.eqb (wname a) (wname b)) in *.
  clear EH EL.
  replace (rows_energy (pair_rows sc (String.eqb (wname a) (wname b)) v3 (x :: cs)) +
    match core sc with Some cc => if String.eqb (wname a) (wname b) then self_energy (core_elements sc cc (wname a)) else 0 | None => 0 end) with (pass_energy sc a b v3)
    by (unfold pass_energy; rewrite EC; reflexivity).
  destruct (Qeq_bool (pass_energy sc a b v3) 0) eqn:E0.
  - cbn [orb bind]. reflexivity.
  - destruct (Qeq_bool (hi - lo + v3) 0) eqn:D0; cbn [orb bind]; [reflexivity|].
    destruct (String.eqb (wname a) (wname b)); [reflexivity|].
    pose proof (next_eq (pass_energy sc a b v3) (hi - lo + v3) (inject_Z (wturns a) / inject_Z (wturns b)) hi lo (Qeq_bool_neq _ _ E0) (Qeq_bool_neq _ _ D0)) as X.
    unfold target. rewrite <- X. destruct (multipole _ _) as (((((m11, m12), m13), m22), m23), m33). reflexivity.
Qed.
(** A pass does not depend on how the loop got there. *)
Lemma settle_enters : forall f sc a b v c last last', moved v (Some c) = true ->
  settle (S f) sc a b false v (Some c) last = settle (S f) sc a b true 0 (Some c) last'.
Proof. intros f sc a b v c last last' H. cbn [settle orb]. rewrite H. reflexivity. Qed.

Lemma counted_tops : forall sc a b, counted sc (wname a) (wname b) <> [] -> exists hi lo, tops sc a b = Some (hi, lo).
Proof.
  intros sc a b H. unfold tops. unfold counted in H.
  destruct (indexes sc (wname a)) as [|i l]; [exfalso; apply H; reflexivity|].
  destruct (indexes sc (wname b)) as [|j l'].
  { exfalso. apply H. assert (X : forall k : list nat, list_prod k ([] : list nat) = []) by (induction k; [reflexivity|assumption]). rewrite X. reflexivity. }
  cbn [map largest smallest]. eauto.
Qed.

(** All the ways one pair of windings can end. *)
Lemma settle_cases : forall f sc a b, (2 <= f)%nat ->
  (counted sc (wname a) (wname b) = [] /\
   settle f sc a b true 0 (Some 0) nothing =
     Ok {| capacity := match core sc with Some cc => if same_winding a b then 0 else through_core (both_elements sc cc (wname a) (wname b)) | None => 0 end;
           shift := 0; rows := [] |}) \/
  (exists hi lo, counted sc (wname a) (wname b) <> [] /\ tops sc a b = Some (hi, lo) /\
     (settle f sc a b true 0 (Some 0) nothing = pass_result sc a b 0 hi lo \/
      (same_winding a b = false /\ settle f sc a b true 0 (Some 0) nothing = pass_result sc a b (Qred (target a b hi lo)) hi lo))).
Proof.
  intros f sc a b F. destruct f as [|[|f]]; [lia|lia|]. clear F.
  destruct (counted sc (wname a) (wname b)) as [|x cs] eqn:EC.
  - left. split; [reflexivity|]. cbn [settle orb]. rewrite EC. fold (same_winding a b). rewrite still. reflexivity.
  - right. assert (N : counted sc (wname a) (wname b) <> []) by (rewrite EC; discriminate). rewrite <- EC.
    destruct (counted_tops sc a b N) as (hi & lo & T). exists hi, lo. split; [exact N|]. split; [exact T|].
    rewrite (settle_pass _ _ _ _ true _ _ hi lo N T (or_introl eq_refl)).
    destruct (pass_result sc a b 0 hi lo) as [s| | |] eqn:PR; cbn [bind]; try (left; reflexivity).
    destruct (same_winding a b) eqn:SM; [left; apply settle_stop, still|].
    destruct (_ || _); [left; apply settle_stop; reflexivity|].
    destruct (moved 0 (Some (Qred (target a b hi lo)))) eqn:M; [|left; apply settle_stop, M].
    right. split; [reflexivity|]. rewrite (settle_enters _ _ _ _ _ _ _ nothing M).
    rewrite (settle_pass _ _ _ _ true _ _ hi lo N T (or_introl eq_refl)).
    destruct (pass_result sc a b (Qred (target a b hi lo)) hi lo) as [s'| | |]; cbn [bind]; try reflexivity.
    rewrite SM. destruct (_ || _); apply settle_stop; [reflexivity|apply still].
Qed.
Lemma pass_ok : forall sc a b v3 hi lo, pass_result sc a b v3 hi lo <> OutOfFuel /\ (forall w, pass_result sc a b v3 hi lo <> UB w) /\
  (forall w, pass_result sc a b v3 hi lo = Throw w -> w = "NaNResult"%string).
Proof.
  intros. unfold pass_result. destruct (Qeq_bool _ 0); [repeat split; intros; discriminate|].
  destruct (Qeq_bool (hi - lo + v3) 0); repeat split; intros; try discriminate. injection H as <-. reflexivity.
Qed.
(** Two passes are always enough, whatever the coil; the only failure is an
    energy without a voltage across it. *)
Theorem C199_terminates : forall f sc a b, (2 <= f)%nat ->
  (exists s, settle f sc a b true 0 (Some 0) nothing = Ok s) \/ settle f sc a b true 0 (Some 0) nothing = Throw "NaNResult".
Proof.
  intros f sc a b F. destruct (settle_cases f sc a b F) as [(_ & E)|(hi & lo & N & T & [E|(_ & E)])]; [left; eauto| |];
    rewrite E; [destruct (pass_ok sc a b 0 hi lo) as (A & B & C)|destruct (pass_ok sc a b (Qred (target a b hi lo)) hi lo) as (A & B & C)];
    (destruct (pass_result sc a b _ hi lo) as [s|w|w|]; [left; eauto|right; rewrite (C w eq_refl); reflexivity|exfalso; exact (B w eq_refl)|exfalso; exact (A eq_refl)]).
Qed.
(** The potential it ends at: none, or half the sum of the two top voltages, the
    first brought over by the turns ratio.  It depends on neither the
    capacitances nor the core. *)
Theorem C199_shift : forall f sc a b s, (2 <= f)%nat -> settle f sc a b true 0 (Some 0) nothing = Ok s ->
  shift s = 0 \/ exists hi lo, tops sc a b = Some (hi, lo) /\ wname a <> wname b /\ shift s == target a b hi lo.
Proof.
  intros f sc a b s F H. destruct (settle_cases f sc a b F) as [(_ & E)|(hi & lo & N & T & [E|(SM & E)])]; rewrite E in H.
  - left. injection H as <-. reflexivity.
  - left. unfold pass_result in H. destruct (Qeq_bool (pass_energy sc a b 0) 0); [injection H as <-; reflexivity|].
    destruct (Qeq_bool (hi - lo + 0) 0); [discriminate|]. injection H as <-. reflexivity.
  - right. exists hi, lo. split; [exact T|]. split; [apply String.eqb_neq, SM|].
    assert (K : Qred (target a b hi lo) == target a b hi lo) by apply Qred_correct.
    set (k := Qred (target a b hi lo)) in *. clearbody k. unfold pass_result in H. destruct (Qeq_bool _ 0); [injection H as <-; exact K|].
    destruct (Qeq_bool (hi - lo + _) 0); [discriminate|]. injection H as <-. exact K.
Qed.
(** The capacitance is twice the stored energy over the square of the voltage
    across the pair. *)
Lemma pass_capacity : forall sc a b v3 hi lo s, pass_result sc a b v3 hi lo = Ok s ->
  capacity s * ((hi - lo + shift s) * (hi - lo + shift s)) == 2 * pass_energy sc a b (shift s) /\
  rows s = pair_rows sc (same_winding a b) (shift s) (counted sc (wname a) (wname b)) /\ shift s = v3 /\
  (capacity s == 0 <-> pass_energy sc a b (shift s) == 0).
Proof.
  intros sc a b v3 hi lo s H. unfold pass_result in H. destruct (Qeq_bool (pass_energy sc a b v3) 0) eqn:E.
  - apply Qeq_bool_iff in E. injection H as <-. cbn [capacity shift rows]. split; [rewrite E; ring|]. split; [reflexivity|]. split; [reflexivity|]. split; intro; [exact E|reflexivity].
  - apply Qeq_bool_neq in E. destruct (Qeq_bool (hi - lo + v3) 0) eqn:D; [discriminate|]. apply Qeq_bool_neq in D. injection H as <-. cbn [capacity shift rows].
    split; [field; exact D|]. split; [reflexivity|]. split; [reflexivity|]. split.
    + intro Z. exfalso. apply E. assert (X : pass_energy sc a b v3 == pass_energy sc a b v3 * 2 / ((hi - lo + v3) * (hi - lo + v3)) * ((hi - lo + v3) * (hi - lo + v3)) * (1 # 2)) by (field; exact D).
      rewrite X, Z. ring.
    + intro Z. rewrite Z. field. exact D.
Qed.
Theorem C199_energy : forall f sc a b s, (2 <= f)%nat -> settle f sc a b true 0 (Some 0) nothing = Ok s ->
  counted sc (wname a) (wname b) <> [] ->
  exists hi lo, tops sc a b = Some (hi, lo) /\
    capacity s * ((hi - lo + shift s) * (hi - lo + shift s)) == 2 * pass_energy sc a b (shift s) /\
    (capacity s == 0 <-> pass_energy sc a b (shift s) == 0).
Proof.
  intros f sc a b s F H N. destruct (settle_cases f sc a b F) as [(Z & _)|(hi & lo & _ & T & [E|(SM & E)])]; [contradiction| |];
    rewrite E in H; apply pass_capacity in H; destruct H as (A & _ & _ & B); exists hi, lo; auto.
Qed.

(** When both passes store energy across a voltage, the potential does get there:
    it stays at zero only if the way is shorter than the least double. *)
Theorem C199_shift_reached : forall f sc a b s hi lo, (2 <= f)%nat -> settle f sc a b true 0 (Some 0) nothing = Ok s ->
  wname a <> wname b -> counted sc (wname a) (wname b) <> [] -> tops sc a b = Some (hi, lo) ->
  ~ pass_energy sc a b 0 == 0 -> (1 # 1000) * smallest_double < target a b hi lo -> shift s == target a b hi lo.
Proof.
  intros f sc a b s hi lo F H NE N T P L. destruct f as [|[|f]]; [lia|lia|]. apply String.eqb_neq in NE. fold (same_winding a b) in NE.
  rewrite (settle_pass _ _ _ _ true _ _ hi lo N T (or_introl eq_refl)) in H. rewrite NE in H.
  destruct (Qeq_bool (pass_energy sc a b 0) 0) eqn:E0; [apply Qeq_bool_iff in E0; contradiction|].
  unfold pass_result at 1 in H. rewrite E0 in H. destruct (Qeq_bool (hi - lo + 0) 0) eqn:D0; [discriminate|]. cbn [bind orb] in H.
  assert (K : Qred (target a b hi lo) == target a b hi lo) by apply Qred_correct.
  assert (M : moved 0 (Some (Qred (target a b hi lo))) = true).
  { unfold moved. apply Qlt_bool_iff. assert (X : Qabs (0 - Qred (target a b hi lo)) == target a b hi lo).
    { rewrite K. unfold target. pose proof (Qabs_nonneg (inject_Z (wturns a) / inject_Z (wturns b) * hi + Qabs lo)). rewrite Qabs_neg by lra. ring. }
    rewrite X. exact L. }
  rewrite (settle_enters _ _ _ _ _ _ _ nothing M), (settle_pass _ _ _ _ true _ _ hi lo N T (or_introl eq_refl)) in H.
  destruct (pass_result sc a b (Qred (target a b hi lo)) hi lo) as [s'| | |] eqn:PR; try discriminate. cbn [bind] in H.
  assert (H' : s' = s).
  { rewrite NE in H. destruct (_ || _) in H; rewrite settle_stop in H by (reflexivity || apply still); congruence. }
  subst s'. apply pass_capacity in PR. destruct PR as (_ & _ & -> & _). exact K.
Qed.
(** Two windings of one turn each with nothing between them but the core: their
    elements to the core, in series. *)
Theorem C199_core_between : forall f ca cb v w, (2 <= f)%nat -> 0 < ca -> 0 < cb -> 0 < v -> 0 < w ->
  exists s, settle f {| windings := [{| wname := "p"; wturns := 1 |}; {| wname := "s"; wturns := 1 |}];
      turns_ := [{| twinding := "p"; tparallel := 0 |}; {| twinding := "s"; tparallel := 0 |}];
      volts := [v; w]; among := []; core := Some [ca; cb] |}
    {| wname := "p"; wturns := 1 |} {| wname := "s"; wturns := 1 |} true 0 (Some 0) nothing = Ok s /\
    capacity s == ca * cb / (ca + cb).
Proof.
  intros f ca cb v w F A B V W.
  match goal with |- exists s, settle _ ?x _ _ _ _ _ _ = _ /\ _ => set (sc := x) end.
  destruct (settle_cases f sc {| wname := "p"; wturns := 1 |} {| wname := "s"; wturns := 1 |} F) as [(_ & E)|(hi & lo & N & _)].
  - eexists. split; [exact E|]. cbn [capacity]. apply (C198_series ca cb v w); lra.
  - exfalso. apply N. reflexivity.
Qed.
Definition healthy (sc : scene) : Prop :=
  (forall p c, lookup p (among sc) = Some c -> 0 <= c) /\
  (forall cc, core sc = Some cc -> Forall (fun c => 0 <= c) cc).
Lemma counted_in : forall sc a b p c, In (p, c) (counted sc a b) -> lookup p (among sc) = Some c.
Proof.
  intros sc a b p c H. unfold counted in H. apply in_flat_map in H. destruct H as (q & _ & I0).
  destruct (lookup q (among sc)) as [c'|] eqn:E; [|contradiction]. destruct I0 as [X|[]]. injection X as -> ->. exact E.
Qed.
Lemma rows_sum : forall rs, rows_energy rs == Qsum (map (fun x => fst (snd x)) rs).
Proof. intro rs. unfold rows_energy. rewrite (fold_sum _ (fun x : (nat * nat) * (Q * Q) => fst (snd x))). apply Qplus_0_l. Qed.
Lemma square_nonneg : forall x, 0 <= x * x.
Proof. intro x. destruct (Qlt_le_dec x 0); nra. Qed.
Lemma rows_nonneg : forall sc same v3 cs, (forall p c, In (p, c) cs -> 0 <= c) -> 0 <= rows_energy (pair_rows sc same v3 cs).
Proof.
  intros sc same v3 cs H. rewrite rows_sum. unfold pair_rows. rewrite map_map. cbn [fst snd]. apply Qsum_nonneg. apply Forall_forall. intros y I0.
  apply in_map_iff in I0. destruct I0 as ((p, c) & <- & I0). cbn [fst snd]. apply Qmult_le_0_compat; [|apply square_nonneg].
  pose proof (H p c I0). lra.
Qed.
Lemma nth_nonneg : forall l i, Forall (fun c => 0 <= c) l -> 0 <= nth i l 0.
Proof.
  intros l i H. destruct (Nat.lt_ge_cases i (List.length l)) as [L|L]; [|rewrite nth_overflow by lia; lra].
  rewrite Forall_forall in H. apply H, nth_In, L.
Qed.
Lemma self_nonneg : forall cv, Forall (fun x => 0 <= fst x) cv -> 0 <= self_energy cv.
Proof.
  intros cv F. destruct (Qlt_le_dec 0 (total cv)) as [P|P]; [apply (C198_least_energy cv P F)|].
  unfold self_energy. destruct (Qle_bool _ 0) eqn:L; [lra|]. apply Qle_bool_false in L. rewrite fold_sum in L. fold (total cv) in L. lra.
Qed.
Lemma pass_nonneg : forall sc a b v3, healthy sc -> 0 <= pass_energy sc a b v3.
Proof.
  intros sc a b v3 (H1 & H2). unfold pass_energy.
  assert (A : 0 <= rows_energy (pair_rows sc (same_winding a b) v3 (counted sc (wname a) (wname b)))).
  { apply rows_nonneg. intros p c I0. apply (H1 p), (counted_in _ _ _ _ _ I0). }
  destruct (core sc) as [cc|] eqn:E; [|lra]. destruct (same_winding a b); [|lra].
  assert (0 <= self_energy (core_elements sc cc (wname a))); [|lra]. apply self_nonneg. unfold core_elements. apply Forall_map. apply Forall_forall.
  intros i _. cbn [fst]. apply nth_nonneg, H2. reflexivity.
Qed.
(** No capacitance is negative. *)
Theorem C199_nonnegative : forall f sc a b s, (2 <= f)%nat -> healthy sc -> settle f sc a b true 0 (Some 0) nothing = Ok s -> 0 <= capacity s.
Proof.
  intros f sc a b s F H E0.
  assert (P : forall v3 hi lo, pass_result sc a b v3 hi lo = Ok s -> 0 <= capacity s).
  { intros v3 hi lo X. unfold pass_result in X. pose proof (pass_nonneg sc a b v3 H). destruct (Qeq_bool _ 0); [injection X as <-; cbn; lra|].
    destruct (Qeq_bool (hi - lo + v3) 0) eqn:D; [discriminate|]. apply Qeq_bool_neq in D. injection X as <-. cbn [capacity].
    set (d := hi - lo + v3) in *. assert (0 < d * d) by (destruct (Qlt_le_dec 0 d); [nra|]; assert (d < 0) by (apply Qnot_le_lt; intro; apply D; lra); nra).
    apply Qle_div_iff; [assumption|]. lra. }
  destruct (settle_cases f sc a b F) as [(_ & E)|(hi & lo & N & T & [E|(SM & E)])]; rewrite E in E0; [|eapply P, E0|eapply P, E0].
  injection E0 as <-. cbn [capacity]. destruct (core sc) as [cc|] eqn:EC; [|lra]. destruct (same_winding a b); [lra|].
  apply C198_through_core_bounds. unfold both_elements. apply Forall_forall. intros x I0. apply in_flat_map in I0. destruct I0 as (i & _ & I0).
  destruct (nth_error (turns_ sc) i) as [t|]; [|contradiction]. destruct (String.eqb (twinding t) (wname a)); [|destruct (String.eqb (twinding t) (wname b))];
    [destruct I0 as [<-|[]]| destruct I0 as [<-|[]]|contradiction]; cbn [fst]; apply nth_nonneg; apply (proj2 H), EC.
Qed.
(** The potential is not that of a floating node: the windings never come out
    neutral. *)
Definition pair_charge (sc : scene) (a b : winding) (v3 : Q) : Q :=
  Qsum (map (fun x => snd x * drop sc (same_winding a b) v3 (fst x)) (counted sc (wname a) (wname b))).
Lemma drop_nonneg : forall sc v3 p, (forall i, 0 <= volt sc i) -> 0 <= v3 -> 0 <= drop sc false v3 p.
Proof. intros sc v3 p V P. unfold drop, second_volt. pose proof (V (fst p)). pose proof (V (snd p)). lra. Qed.
Lemma sums_agree : forall sc v3 cs, (forall p c, In (p, c) cs -> 0 <= c) -> (forall p, 0 <= drop sc false v3 p) ->
  0 < rows_energy (pair_rows sc false v3 cs) -> 0 < Qsum (map (fun x => snd x * drop sc false v3 (fst x)) cs).
Proof.
  intros sc v3 cs H D E. rewrite rows_sum in E. unfold pair_rows in E. rewrite map_map in E. cbn [fst snd] in E.
  induction cs as [|(p, c) cs IH]; [cbn in E; lra|]. cbn [map Qsum fst snd] in *.
  assert (C : 0 <= c) by (apply (H p); left; reflexivity). pose proof (D p) as DP.
  assert (R : 0 <= Qsum (map (fun x => snd x * drop sc false v3 (fst x)) cs)).
  { apply Qsum_nonneg, Forall_forall. intros y I0. apply in_map_iff in I0. destruct I0 as ((q, c') & <- & I0). cbn [fst snd].
    apply Qmult_le_0_compat; [apply (H q); right; exact I0|apply D]. }
  assert (CD : 0 <= c * drop sc false v3 p) by (apply Qmult_le_0_compat; assumption).
  destruct (Qlt_le_dec 0 (c * drop sc false v3 p)) as [L|L]; [lra|].
  assert (Z : c * drop sc false v3 p == 0) by lra.
  assert (0 < Qsum (map (fun x => snd x * drop sc false v3 (fst x)) cs)); [|lra].
  apply IH; [intros q c' I0; apply (H q); right; exact I0|].
  assert (X : (1 # 2) * c * (drop sc false v3 p * drop sc false v3 p) == (1 # 2) * (c * drop sc false v3 p) * drop sc false v3 p) by ring.
  rewrite Z in X. rewrite X in E. lra.
Qed.
Theorem C199_floating_refuted : forall f sc a b s, (2 <= f)%nat -> healthy sc -> (forall i, 0 <= volt sc i) ->
  wname a <> wname b -> counted sc (wname a) (wname b) <> [] ->
  settle f sc a b true 0 (Some 0) nothing = Ok s -> 0 < capacity s -> 0 < pair_charge sc a b (shift s).
Proof.
  intros f sc a b s F H V NE N E C. assert (SM : same_winding a b = false) by (apply String.eqb_neq, NE).
  destruct (C199_energy f sc a b s F E N) as (hi & lo & T & A & B).
  assert (PN : 0 < pass_energy sc a b (shift s)).
  { pose proof (pass_nonneg sc a b (shift s) H). destruct (Qlt_le_dec 0 (pass_energy sc a b (shift s))); [assumption|]. assert (Z : capacity s == 0) by (apply B; lra). lra. }
  assert (SP : 0 <= shift s).
  { destruct (C199_shift f sc a b s F E) as [->|(h & l & _ & _ & ->)]; [lra|]. unfold target. pose proof (Qabs_nonneg (inject_Z (wturns a) / inject_Z (wturns b) * h + Qabs l)). lra. }
  unfold pair_charge. unfold pass_energy in PN. rewrite SM in *.
  apply sums_agree.
  - intros p c I0. apply (proj1 H p), (counted_in _ _ _ _ _ I0).
  - intro p. apply drop_nonneg; assumption.
  - destruct (core sc); lra.
Qed.

Definition coil2 : scene := {|
  windings := [{| wname := "p"; wturns := 2 |}; {| wname := "s"; wturns := 2 |}];
  turns_ := [{| twinding := "p"; tparallel := 0 |}; {| twinding := "p"; tparallel := 0 |}; {| twinding := "s"; tparallel := 0 |}; {| twinding := "s"; tparallel := 0 |}];
  volts := [10; 0; 10; 0];
  among := [((0, 1)%nat, 3); ((1, 0)%nat, 3); ((1, 2)%nat, 5); ((2, 1)%nat, 5)];
  core := None |}.
Example C199_witness : exists s, settle 2 coil2 {| wname := "p"; wturns := 2 |} {| wname := "s"; wturns := 2 |} true 0 (Some 0) nothing = Ok s /\
  shift s = 10 /\ capacity s == 20 # 9 /\ pair_charge coil2 {| wname := "p"; wturns := 2 |} {| wname := "s"; wturns := 2 |} 10 == 100.
Proof. eexists. split; [vm_compute; reflexivity|]. repeat split. Qed.
Print Assumptions C199_terminates.
Print Assumptions C199_shift.
Print Assumptions C199_energy.
Print Assumptions C199_shift_reached.
Print Assumptions C199_core_between.
Print Assumptions C199_nonnegative.
Print Assumptions C199_floating_refuted.
