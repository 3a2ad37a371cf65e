(** * C155: the caches of the permeability change no answer *)
From Coq Require Import Reals List String Ascii Bool Lra Lia.
From Verif Require Import Base SizingModel CoreLossModel PermeabilityModel PermeabilityProperties.
Import ListNotations.
Local Open Scope R_scope.

(** ** Vocabulary *)

(** Materials of one name have the same data. *)
Definition consistent (u : list material) : Prop :=
  forall x y, In x u -> In y u -> name x = name y -> initial x = initial y.

(** The questions of a session. *)
Inductive question :=
| Permeability (c : material) (temperature bias frequency flux : option R) (family : option string)
| DropFrequency (c : material) (drop error : R).
Definition about (q : question) : material :=
  match q with Permeability c _ _ _ _ _ => c | DropFrequency c _ _ => c end.

Section Caches.
Variable spline : list (R * R) -> R -> R.
Variable samples : list R.
Variable amplitude : material -> option R -> option R -> R -> outcome (option R).

Definition reply (m : memory) (q : question) : outcome (option R) * memory :=
  match q with
  | Permeability c t h f b family =>
      let r := permeability spline samples amplitude m c t h f b family in
      (match fst r with Ok v => Ok (Some v) | Throw e => Throw e | UB e => UB e | OutOfFuel => OutOfFuel end, snd r)
  | DropFrequency c d e => drop_frequency spline samples m c d e
  end.
(** The caches after a session that began without them. *)
Definition session (history : list question) : memory := fold_left (fun m q => snd (reply m q)) history nothing.

(** ** Honest caches *)

Definition honest (u : list material) (m : memory) : Prop :=
  forall a n t, m a n = Some t -> exists y l, In y u /\ name y = n /\ points_along samples a y = Ok l /\ l <> [] /\ table a l = Ok t.
Definition steady {A : Type} (u : list material) (F : memory -> outcome A * memory) : Prop :=
  exists r, forall m, honest u m -> fst (F m) = r /\ honest u (snd (F m)).

Lemma honest_nothing : forall u, honest u nothing.
Proof. intros u a n t H. discriminate. Qed.

Lemma points_same : forall a x y, initial x = initial y -> points_along samples a x = points_along samples a y.
Proof. intros a x y H. unfold points_along. rewrite H. reflexivity. Qed.

Lemma axis_eqb_eq : forall a b, axis_eqb a b = true -> a = b.
Proof. intros [] []; simpl; intros; congruence. Qed.

Lemma along_steady : forall u a c x, consistent u -> In c u -> steady u (fun m => along spline samples a m c x).
Proof.
  intros u a c x C I. exists (fst (along spline samples a nothing c x)). intros m H. unfold along.
  destruct (points_along samples a c) as [[|p l]|e|e|] eqn:P; cbn [fst snd]; try (split; [reflexivity|exact H]).
  cbn [nothing]. unfold nothing at 1. destruct (m a (name c)) as [t|] eqn:M.
  - destruct (H _ _ _ M) as (y & l' & Y & N & P' & _ & T).
    rewrite (points_same a y c) in P' by (apply C; assumption). rewrite P in P'. apply ok_inj in P'. subst l'.
    rewrite T. split; [reflexivity|exact H].
  - destruct (table a (p :: l)) as [t|e|e|] eqn:T; cbn [fst snd]; (split; [reflexivity|]); try exact H.
    intros b n t' K. unfold remember in K. destruct (axis_eqb a b && String.eqb (name c) n)%bool eqn:E; [|apply H; exact K].
    apply andb_true_iff in E. destruct E as (E1 & E2). apply axis_eqb_eq in E1. apply String.eqb_eq in E2. subst b n.
    injection K as <-. exists c, (p :: l). split; [exact I|]. split; [reflexivity|]. split; [exact P|]. split; [discriminate|exact T].
Qed.

Lemma pure_steady : forall A u (r : outcome A), steady u (fun m => (r, m)).
Proof. intros A u r. exists r. intros m H. split; [reflexivity|exact H]. Qed.

Lemma step_steady : forall A B u (F : memory -> outcome A * memory) (G : A -> memory -> outcome B * memory),
  steady u F -> (forall a, steady u (G a)) -> steady u (fun m => step (F m) G).
Proof.
  intros A B u F G (r & HF) HG. destruct r as [a|e|e|].
  - destruct (HG a) as (s & HS). exists s. intros m H. destruct (HF m H) as (E & K). destruct (F m) as [o m']. cbn [fst snd] in *.
    subst o. cbn [step]. apply HS. exact K.
  - exists (Throw e). intros m H. destruct (HF m H) as (E & K). destruct (F m) as [o m']. cbn [fst snd] in *. subst o. split; [reflexivity|exact K].
  - exists (UB e). intros m H. destruct (HF m H) as (E & K). destruct (F m) as [o m']. cbn [fst snd] in *. subst o. split; [reflexivity|exact K].
  - exists OutOfFuel. intros m H. destruct (HF m H) as (E & K). destruct (F m) as [o m']. cbn [fst snd] in *. subst o. split; [reflexivity|exact K].
Qed.

Lemma pure_step_steady : forall A B u (r : outcome A) (G : A -> memory -> outcome B * memory),
  (forall a, steady u (G a)) -> steady u (fun m => step (r, m) G).
Proof. intros A B u r G H. apply (step_steady A B u (fun m => (r, m)) G); [apply pure_steady|exact H]. Qed.

Lemma factor_steady : forall u on argument a r c, consistent u -> In c u ->
  steady u (fun m => factor spline samples on argument a r m c).
Proof.
  intros u on argument a r c C I. unfold factor. destruct on; [|apply pure_steady]. destruct argument as [x|]; [|apply pure_steady].
  apply step_steady; [apply along_steady; assumption|]. intros v. apply pure_steady.
Qed.

Lemma reference_steady : forall u c l, consistent u -> In c u -> steady u (fun m => reference spline samples m c l).
Proof.
  intros u c l C I. unfold reference. destruct (depends_on_temperature c).
  - apply step_steady; [apply along_steady; assumption|]. intros v. apply pure_steady.
  - destruct (depends_on_frequency c).
    + apply pure_step_steady. intros f. apply step_steady; [apply along_steady; assumption|]. intros v. apply pure_steady.
    + destruct (depends_on_bias c).
      * apply pure_step_steady. intros f. apply step_steady; [apply along_steady; assumption|]. intros v. apply pure_steady.
      * destruct (ambient l None) as [[d v]|]; [apply pure_steady|]. destruct (String.eqb (name c) "Dummy"); apply pure_steady.
Qed.

Lemma plain_steady : forall u c t h f b family, consistent u -> In c u ->
  steady u (fun m => plain spline samples amplitude m c t h f b family).
Proof.
  intros u c t h f b family C I. unfold plain. destruct (initial c) as [p|l]; [apply pure_steady|].
  apply step_steady; [apply reference_steady; assumption|]. intros [r stop]. destruct stop; [apply pure_steady|].
  apply step_steady; [apply factor_steady; assumption|]. intros x.
  apply step_steady; [apply factor_steady; assumption|]. intros y.
  apply step_steady; [apply factor_steady; assumption|]. intros z.
  apply pure_step_steady. intros s. apply pure_steady.
Qed.

Lemma permeability_steady : forall u c t h f b family, consistent u -> In c u ->
  steady u (fun m => permeability spline samples amplitude m c t h f b family).
Proof.
  intros u c t h f b family C I. unfold permeability. apply step_steady; [apply plain_steady; assumption|].
  intros v. apply pure_steady.
Qed.

Lemma halve_steady : forall u c wanted error n low high current, consistent u -> In c u ->
  steady u (fun m => halve spline samples n m c wanted error low high current).
Proof.
  intros u c wanted error n. induction n as [|n IH]; intros low high current C I; cbn [halve]; [apply pure_steady|].
  apply step_steady; [apply along_steady; assumption|]. intros v.
  destruct (if Req_EM_T wanted 0 then false else if Rlt_dec (Rabs (v - wanted) / wanted) error then true else false); [apply pure_steady|].
  destruct (Rlt_dec wanted v); apply IH; assumption.
Qed.

Lemma drop_steady : forall u c d e, consistent u -> In c u -> steady u (fun m => drop_frequency spline samples m c d e).
Proof.
  intros u c d e C I. unfold drop_frequency. destruct (depends_on_frequency c); [|apply pure_steady].
  apply pure_step_steady. intros l. apply pure_step_steady. intros low. apply pure_step_steady. intros high.
  apply step_steady; [apply along_steady; assumption|]. intros r. destruct high as [high|]; [|apply pure_steady].
  apply step_steady; [apply halve_steady; assumption|]. intros f. apply pure_steady.
Qed.

Lemma reply_steady : forall u q, consistent u -> In (about q) u -> steady u (fun m => reply m q).
Proof.
  intros u [c t h f b family|c d e] C I; cbn [reply about] in *.
  - destruct (permeability_steady u c t h f b family C I) as (r & H).
    exists (match r with Ok v => Ok (Some v) | Throw e => Throw e | UB e => UB e | OutOfFuel => OutOfFuel end).
    intros m M. destruct (H m M) as (E & K). cbn [fst snd]. rewrite E. split; [reflexivity|exact K].
  - apply drop_steady; assumption.
Qed.

(** ** C155 *)

Lemma session_honest : forall u history m, consistent u -> (forall q, In q history -> In (about q) u) -> honest u m ->
  honest u (fold_left (fun m q => snd (reply m q)) history m).
Proof.
  intros u history. induction history as [|q history IH]; intros m C U H; simpl; [exact H|].
  apply IH; [exact C|intros k K; apply U; right; exact K|].
  destruct (reply_steady u q C (U q (or_introl eq_refl))) as (r & S). apply S. exact H.
Qed.

(** As long as materials of one name have the same data, no question changes the
    answer to another. *)
Theorem C155_history : forall history q, consistent (about q :: map about history) ->
  fst (reply (session history) q) = fst (reply nothing q).
Proof.
  intros history q C. destruct (reply_steady _ q C (or_introl eq_refl)) as (r & S).
  assert (H : honest (about q :: map about history) (session history)).
  { apply session_honest; [exact C| |apply honest_nothing]. intros k K. right. apply in_map. exact K. }
  destruct (S _ H) as (-> & _). destruct (S _ (honest_nothing _)) as (-> & _). reflexivity.
Qed.

(** The Curie temperature is not kept: materials that only differ in it do not
    disturb each other. *)
Theorem C155_curie : forall c c' q, initial c = initial c' -> about q = c -> 
  fst (reply (session [Permeability c' None None None None None]) q) = fst (reply nothing q).
Proof.
  intros c c' q H Q. apply C155_history. intros x y X Y _. simpl in X, Y.
  destruct X as [<-|[<-|[]]], Y as [<-|[<-|[]]]; try reflexivity; rewrite Q; [exact H|symmetry; exact H].
Qed.
End Caches.

(** ** What does not hold *)

(** A material with one point. *)
Definition lone (n : string) (v : R) : point * material :=
  let p := {| value := v; at_temperature := Some 25; at_frequency := Some 10000; at_bias := None; modifiers := None |} in
  (p, {| name := n; initial := Measured [p]; curie := None |}).

Lemma lone_along : forall spline samples n v m x,
  along spline samples Frequency m (snd (lone n v)) x =
  match m Frequency n with
  | Some t => (Ok (interpolate spline Frequency t x), m)
  | None => (Ok v, remember m Frequency n [(10000, v)])
  end.
Proof.
  intros spline samples n v m x. unfold along, points_along, lone. cbn [snd initial only minimum_bias bind].
  cbn [least at_bias or_default filter]. unfold nearest_temperature. cbn [nearest at_temperature is_at].
  destruct (Req_EM_T 25 25) as [_|N]; [|contradiction]. cbn [at_most andb name curie].
  destruct (m Frequency n) as [t|]; reflexivity.
Qed.

Lemma lone_permeability : forall spline samples amplitude n v m,
  permeability spline samples amplitude m (snd (lone n v)) None None None None None =
  match m Frequency n with
  | Some t => (Ok (interpolate spline Frequency t 10000 * 1 * 1 * 1 * 1), m)
  | None => (Ok (v * 1 * 1 * 1 * 1), remember m Frequency n [(10000, v)])
  end.
Proof.
  intros spline samples amplitude n v m. unfold permeability, plain.
  change (initial (snd (lone n v))) with (Measured [fst (lone n v)]). cbv iota.
  unfold reference.
  change (depends_on_temperature (snd (lone n v))) with false. cbv iota.
  replace (depends_on_frequency (snd (lone n v))) with true
    by (unfold depends_on_frequency, lone; cbn; destruct (Rlt_dec 100 10000); [reflexivity|lra]).
  change (minimum_frequency [fst (lone n v)]) with (Ok 10000). cbn [step]. rewrite lone_along.
  change (depends_on_bias (snd (lone n v))) with false.
  destruct (m Frequency n) as [t|]; cbn [step factor]; unfold saturation; cbn [bind];
    change (depends_on_bias (snd (lone n v))) with false; cbn [bind step]; reflexivity.
Qed.

(** A material of a name already asked for gets the answer of the first one. *)
Theorem C155_same_name_refuted : forall spline samples amplitude, exists c c',
  name c = name c' /\
  fst (reply spline samples amplitude nothing (Permeability c None None None None None)) = Ok (Some 2000) /\
  fst (reply spline samples amplitude nothing (Permeability c' None None None None None)) = Ok (Some 900) /\
  fst (reply spline samples amplitude (session spline samples amplitude [Permeability c None None None None None])
         (Permeability c' None None None None None)) = Ok (Some 2000).
Proof.
  intros spline samples amplitude. exists (snd (lone "N87" 2000)), (snd (lone "N87" 900)).
  unfold session. cbn [fold_left reply]. rewrite !lone_permeability. cbn [fst snd]. cbn [nothing]. unfold nothing at 1 2 3 4.
  split; [reflexivity|]. cbn [fst snd].
  split; [do 2 f_equal; lra|]. split; [do 2 f_equal; lra|].
  unfold remember. cbn [axis_eqb andb fst]. rewrite String.eqb_refl. cbn [fst interpolate]. do 2 f_equal. lra.
Qed.

(** ** Witnesses *)

Example C155_witness : consistent [snd (lone "N87" 2000); snd (lone "N97" 2300); snd (lone "N87" 2000)].
Proof.
  intros x y X Y E. simpl in X, Y. destruct X as [<-|[<-|[<-|[]]]], Y as [<-|[<-|[<-|[]]]]; try reflexivity; discriminate.
Qed.

Print Assumptions C155_history.
Print Assumptions C155_same_name_refuted.
