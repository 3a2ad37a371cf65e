(** Lemmas about the waveform model. *)
From Coq Require Import ZArith QArith Qabs List String Bool Arith Lia Lqa Sorted.
From Verif Require Import Base QAux WaveModel.
Import ListNotations.
Open Scope Q_scope.
Open Scope outcome_scope.

Notation point := (Q * Q)%type.

(** A waveform given by its points. *)
Definition of_points (pts : list point) (label : option wave_label) : waveform :=
  mkWave (map snd pts) (Some (map fst pts)) label.

Definition first_time (pts : list point) : Q := fst (hd (0, 0) pts).
Definition last_time (pts : list point) : Q := fst (last pts (0, 0)).

(** Times never go back. *)
Fixpoint ordered (pts : list point) : Prop :=
  match pts with
  | p :: ((q :: _) as rest) => fst p <= fst q /\ ordered rest
  | _ => True
  end.

Lemma combine_map : forall pts : list point, combine (map fst pts) (map snd pts) = pts.
Proof. induction pts as [|[t v] pts IH]; [reflexivity|]. cbn. f_equal. exact IH. Qed.

Lemma points_of_points : forall pts : list point, points (map fst pts) (map snd pts) = Ok pts.
Proof.
  intros pts. unfold points. rewrite !map_length, Nat.ltb_irrefl, combine_map. reflexivity.
Qed.

Lemma idx_nth : forall l k, (k < List.length l)%nat -> idx l k = Ok (nth k l 0).
Proof.
  intros l k H. unfold idx. rewrite (nth_error_nth' l 0 H). reflexivity.
Qed.

Lemma nth_last : forall (l : list Q), l <> [] -> nth (List.length l - 1) l 0 = last l 0.
Proof.
  induction l as [|a l IH]; [congruence|]. intros _. destruct l as [|b l]; [reflexivity|].
  replace (List.length (a :: b :: l) - 1)%nat with (Datatypes.S (List.length (b :: l) - 1)) by (cbn; lia).
  change (nth (List.length (b :: l) - 1) (b :: l) 0 = last (b :: l) 0). apply IH. discriminate.
Qed.

Lemma last_map_fst : forall pts : list point, last (map fst pts) 0 = last_time pts.
Proof.
  intros pts. unfold last_time. induction pts as [|a pts IH]; [reflexivity|].
  destruct pts as [|b pts]; [reflexivity|]. exact IH.
Qed.

Lemma back_points : forall pts : list point, pts <> [] -> back (map fst pts) = Ok (last_time pts).
Proof.
  intros pts NE. unfold back. rewrite idx_nth.
  - rewrite nth_last, last_map_fst; [reflexivity|]. destruct pts; [congruence|discriminate].
  - rewrite map_length. destruct pts; [congruence|cbn; lia].
Qed.

Lemma front_points : forall pts : list point, pts <> [] -> front (map fst pts) = Ok (first_time pts).
Proof. intros [|p pts] NE; [congruence|reflexivity]. Qed.

(** The area under the polyline. *)
Fixpoint area (l : list point) : Q :=
  match l with
  | p :: ((q :: _) as rest) => (snd q + snd p) / 2 * (fst q - fst p) + area rest
  | _ => 0
  end.

Lemma area_cons : forall p q l, area (p :: q :: l) = (snd q + snd p) / 2 * (fst q - fst p) + area (q :: l).
Proof. reflexivity. Qed.

Lemma integral_area : forall l acc, integral acc l == acc + area l.
Proof.
  induction l as [|p l IH]; intros acc; [cbn [integral area map]; unfold first_time, last_time; cbn [hd last fst snd]; ring|].
  destruct l as [|q l]; [cbn [integral area map]; unfold first_time, last_time; cbn [hd last fst snd]; ring|].
  change (integral acc (p :: q :: l)) with (integral (acc + (snd q + snd p) / 2 * (fst q - fst p)) (q :: l)).
  rewrite IH, area_cons. ring.
Qed.

Lemma average_points : forall pts label, pts <> [] -> exists a,
  calculate_waveform_average (of_points pts label) = Ok a /\
  a == area pts / (last_time pts - first_time pts).
Proof.
  intros pts label NE. unfold calculate_waveform_average, of_points, time_of. cbn [w_time w_data bind].
  rewrite (back_points pts NE), (front_points pts NE). cbn [bind].
  destruct (Nat.eqb_spec (List.length (map snd pts)) 0) as [E|_].
  - rewrite map_length in E. destruct pts; [congruence|discriminate].
  - rewrite points_of_points. cbn [bind]. eexists. split; [reflexivity|].
    rewrite integral_area. unfold Qdiv. ring.
Qed.

Lemma last_time_cons : forall p q l, last_time (p :: q :: l) = last_time (q :: l).
Proof. reflexivity. Qed.

Lemma ordered_first_last : forall l, l <> [] -> ordered l -> first_time l <= last_time l.
Proof.
  induction l as [|p l IH]; [congruence|]. intros _ O. destruct l as [|q l].
  - unfold first_time, last_time. cbn [hd last]. lra.
  - destruct O as [O1 O2]. specialize (IH ltac:(discriminate) O2).
    rewrite last_time_cons. unfold first_time in *. cbn [hd] in *. lra.
Qed.

Lemma area_bounds : forall lo hi l, ordered l -> (forall p, In p l -> lo <= snd p /\ snd p <= hi) ->
  l <> [] ->
  lo * (last_time l - first_time l) <= area l /\ area l <= hi * (last_time l - first_time l).
Proof.
  intros lo hi. induction l as [|p l IH]; [congruence|]. intros O B _. destruct l as [|q l].
  - unfold first_time, last_time. cbn [area hd last]. split; lra.
  - destruct O as [O1 O2].
    destruct (IH O2 (fun r R => B r (or_intror R)) ltac:(discriminate)) as [L U].
    rewrite last_time_cons, area_cons. unfold first_time in *. cbn [hd] in *.
    destruct (B p (or_introl eq_refl)) as [P1 P2].
    destruct (B q (or_intror (or_introl eq_refl))) as [Q1 Q2].
    set (h := (snd q + snd p) / 2).
    assert (H1 : lo <= h) by (unfold h; apply Qle_shift_div_l; lra).
    assert (H2 : h <= hi) by (unfold h; apply Qle_shift_div_r; lra).
    clearbody h. split; nra.
Qed.

(** Scaling the values and adding a constant. *)
Definition affine (k c : Q) (p : point) : point := (fst p, k * snd p + c).

Lemma affine_first : forall k c l, first_time (map (affine k c) l) = first_time l.
Proof. intros k c [|p l]; reflexivity. Qed.
Lemma affine_last : forall k c l, last_time (map (affine k c) l) = last_time l.
Proof.
  intros k c. induction l as [|p l IH]; [reflexivity|]. destruct l as [|q l]; [reflexivity|exact IH].
Qed.

Lemma area_affine : forall k c l,
  area (map (affine k c) l) == k * area l + c * (last_time l - first_time l).
Proof.
  intros k c. induction l as [|p l IH]; [cbn [integral area map]; unfold first_time, last_time; cbn [hd last fst snd]; ring|]. destruct l as [|q l]; [cbn [integral area map]; unfold first_time, last_time; cbn [hd last fst snd]; ring|].
  change (map (affine k c) (p :: q :: l)) with (affine k c p :: affine k c q :: map (affine k c) l).
  rewrite area_cons. change (affine k c q :: map (affine k c) l) with (map (affine k c) (q :: l)).
  rewrite IH, area_cons, last_time_cons. unfold first_time. cbn [hd affine fst snd]. field.
Qed.

(** Moving and stretching the time axis. *)
Definition retime (k c : Q) (p : point) : point := (k * fst p + c, snd p).

Lemma retime_first : forall k c l, l <> [] -> first_time (map (retime k c) l) = k * first_time l + c.
Proof. intros k c [|p l] H; [congruence|reflexivity]. Qed.
Lemma retime_last : forall k c l, l <> [] -> last_time (map (retime k c) l) = k * last_time l + c.
Proof.
  intros k c. induction l as [|p l IH]; [congruence|]. intros _. destruct l as [|q l]; [reflexivity|].
  rewrite last_time_cons. rewrite <- IH by discriminate. reflexivity.
Qed.

Lemma area_retime : forall k c l, area (map (retime k c) l) == k * area l.
Proof.
  intros k c. induction l as [|p l IH]; [cbn [integral area map]; unfold first_time, last_time; cbn [hd last fst snd]; ring|]. destruct l as [|q l]; [cbn [integral area map]; unfold first_time, last_time; cbn [hd last fst snd]; ring|].
  change (map (retime k c) (p :: q :: l)) with (retime k c p :: retime k c q :: map (retime k c) l).
  rewrite area_cons. change (retime k c q :: map (retime k c) l) with (map (retime k c) (q :: l)).
  rewrite IH, area_cons. cbn [retime fst snd]. field.
Qed.

Lemma area_app : forall l p m, area (l ++ p :: m) == area (l ++ [p]) + area (p :: m).
Proof.
  induction l as [|a l IH]; intros p m; [cbn [app area]; ring|].
  destruct l as [|b l].
  - change ((a :: []) ++ p :: m) with (a :: p :: m). change ((a :: []) ++ [p]) with ([a; p]).
    rewrite !area_cons. cbn [area]. ring.
  - change ((a :: b :: l) ++ p :: m) with (a :: b :: (l ++ p :: m)).
    change ((a :: b :: l) ++ [p]) with (a :: b :: (l ++ [p])).
    rewrite !area_cons. change (b :: l ++ p :: m) with ((b :: l) ++ p :: m).
    change (b :: l ++ [p]) with ((b :: l) ++ [p]). rewrite IH. ring.
Qed.

Lemma first_time_app : forall l m, l <> [] -> first_time (l ++ m) = first_time l.
Proof. intros [|p l] m H; [congruence|reflexivity]. Qed.
Lemma last_time_app : forall l m, m <> [] -> last_time (l ++ m) = last_time m.
Proof.
  intros l m H. unfold last_time. f_equal. induction l as [|a l IH]; [reflexivity|].
  cbn [app]. destruct (l ++ m) as [|b n] eqn:E.
  - apply app_eq_nil in E. destruct E. congruence.
  - exact IH.
Qed.

(** ** Extremes *)

Lemma greatest_spec : forall l m, greatest l = Ok m ->
  In m l /\ (forall x, In x l -> x <= m).
Proof.
  intros [|x l] m H; [discriminate|]. injection H as <-.
  assert (G : forall t a, In (fold_left (fun m y => if Qlt_bool m y then y else m) t a) (a :: t) /\
    forall y, In y (a :: t) -> y <= fold_left (fun m y => if Qlt_bool m y then y else m) t a).
  { clear. induction t as [|b t IH]; intros a.
    - split; [left; reflexivity|]. intros y [ -> |[]]. cbn. lra.
    - cbn [fold_left]. destruct (Qlt_bool a b) eqn:E; qb.
      + destruct (IH b) as [I J]. split; [right; exact I|].
        intros y [ -> |Y]; [|exact (J y Y)]. specialize (J b (or_introl eq_refl)). lra.
      + destruct (IH a) as [I J]. split.
        * destruct I as [I|I]; [left; exact I|right; right; exact I].
        * intros y [ -> |[ -> |Y]]; [exact (J y (or_introl eq_refl))| |exact (J y (or_intror Y))].
          specialize (J a (or_introl eq_refl)). lra. }
  apply G.
Qed.

Lemma smallest_spec : forall l m, smallest l = Ok m ->
  In m l /\ (forall x, In x l -> m <= x).
Proof.
  intros [|x l] m H; [discriminate|]. injection H as <-.
  assert (G : forall t a, In (fold_left (fun m y => if Qlt_bool y m then y else m) t a) (a :: t) /\
    forall y, In y (a :: t) -> fold_left (fun m y => if Qlt_bool y m then y else m) t a <= y).
  { clear. induction t as [|b t IH]; intros a.
    - split; [left; reflexivity|]. intros y [ -> |[]]. cbn. lra.
    - cbn [fold_left]. destruct (Qlt_bool b a) eqn:E; qb.
      + destruct (IH b) as [I J]. split; [right; exact I|].
        intros y [ -> |Y]; [|exact (J y Y)]. specialize (J b (or_introl eq_refl)). lra.
      + destruct (IH a) as [I J]. split.
        * destruct I as [I|I]; [left; exact I|right; right; exact I].
        * intros y [ -> |[ -> |Y]]; [exact (J y (or_introl eq_refl))| |exact (J y (or_intror Y))].
          specialize (J a (or_introl eq_refl)). lra. }
  apply G.
Qed.

Lemma greatest_total : forall l, l <> [] -> exists m, greatest l = Ok m.
Proof. intros [|x l] H; [congruence|]. eexists. reflexivity. Qed.
Lemma smallest_total : forall l, l <> [] -> exists m, smallest l = Ok m.
Proof. intros [|x l] H; [congruence|]. eexists. reflexivity. Qed.

(** The extremes are determined up to equality of rationals. *)
Lemma greatest_unique : forall l m x, greatest l = Ok m -> In x l -> (forall y, In y l -> y <= x) -> m == x.
Proof.
  intros l m x H I U. destruct (greatest_spec l m H) as [J V].
  apply Qle_antisym; [exact (U m J)|exact (V x I)].
Qed.
Lemma smallest_unique : forall l m x, smallest l = Ok m -> In x l -> (forall y, In y l -> x <= y) -> m == x.
Proof.
  intros l m x H I U. destruct (smallest_spec l m H) as [J V].
  apply Qle_antisym; [exact (V x I)|exact (U m J)].
Qed.

(** ** Duty cycle *)

Fixpoint on_time (mid : Q) (l : list point) : Q :=
  match l with
  | p :: ((q :: _) as rest) =>
      (if Qle_bool mid ((snd p + snd q) / 2) then fst q - fst p else 0) + on_time mid rest
  | _ => 0
  end.

Lemma on_time_cons : forall mid p q l, on_time mid (p :: q :: l) =
  (if Qle_bool mid ((snd p + snd q) / 2) then fst q - fst p else 0) + on_time mid (q :: l).
Proof. reflexivity. Qed.

Lemma time_on_on_time : forall mid l acc, time_on mid acc l == acc + on_time mid l.
Proof.
  intros mid. induction l as [|p l IH]; intros acc; [cbn [integral area time_on on_time map]; unfold first_time, last_time; cbn [hd last fst snd]; ring|].
  destruct l as [|q l]; [cbn [integral area time_on on_time map]; unfold first_time, last_time; cbn [hd last fst snd]; ring|].
  change (time_on mid acc (p :: q :: l)) with
    (time_on mid (if Qle_bool mid ((snd p + snd q) / 2) then acc + (fst q - fst p) else acc) (q :: l)).
  rewrite IH, on_time_cons. destruct (Qle_bool mid ((snd p + snd q) / 2)); ring.
Qed.

Lemma on_time_bounds : forall mid l, l <> [] -> ordered l ->
  0 <= on_time mid l /\ on_time mid l <= last_time l - first_time l.
Proof.
  intros mid. induction l as [|p l IH]; [congruence|]. intros _ O. destruct l as [|q l].
  - unfold first_time, last_time. cbn [area on_time hd last]. split; lra.
  - destruct O as [O1 O2]. destruct (IH ltac:(discriminate) O2) as [L U].
    rewrite last_time_cons, on_time_cons. unfold first_time in *. cbn [hd] in *.
    destruct (Qle_bool mid ((snd p + snd q) / 2)); split; lra.
Qed.

Lemma Qle_bool_ext : forall a b c d, (a <= b <-> c <= d) -> Qle_bool a b = Qle_bool c d.
Proof.
  intros a b c d H. destruct (Qle_bool a b) eqn:E; destruct (Qle_bool c d) eqn:F; auto.
  - apply Qle_bool_iff in E. apply H in E. apply Qle_bool_iff in E. congruence.
  - apply Qle_bool_iff in F. apply H in F. apply Qle_bool_iff in F. congruence.
Qed.

Lemma on_time_affine : forall k c mid mid' l, 0 < k -> mid' == k * mid + c ->
  on_time mid' (map (affine k c) l) == on_time mid l.
Proof.
  intros k c mid mid' l K M. induction l as [|p l IH]; [reflexivity|].
  destruct l as [|q l]; [reflexivity|].
  change (map (affine k c) (p :: q :: l)) with (affine k c p :: affine k c q :: map (affine k c) l).
  rewrite !on_time_cons. change (affine k c q :: map (affine k c) l) with (map (affine k c) (q :: l)).
  rewrite IH. cbn [affine fst snd].
  rewrite (Qle_bool_ext mid' ((k * snd p + c + (k * snd q + c)) / 2) mid ((snd p + snd q) / 2)); [reflexivity|].
  rewrite M. set (h := (snd p + snd q) / 2).
  assert (E : (k * snd p + c + (k * snd q + c)) / 2 == k * h + c) by (unfold h; field).
  rewrite E. split; intros L; nra.
Qed.

Lemma on_time_ext : forall mid mid' l, mid == mid' -> on_time mid l == on_time mid' l.
Proof.
  intros mid mid' l M. induction l as [|p l IH]; [reflexivity|].
  destruct l as [|q l]; [reflexivity|]. rewrite !on_time_cons, IH.
  rewrite (Qle_bool_ext mid ((snd p + snd q) / 2) mid' ((snd p + snd q) / 2)); [reflexivity|].
  rewrite M. reflexivity.
Qed.

Lemma on_time_retime : forall k c mid l, on_time mid (map (retime k c) l) == k * on_time mid l.
Proof.
  intros k c mid. induction l as [|p l IH]; [cbn [integral area time_on on_time map]; unfold first_time, last_time; cbn [hd last fst snd]; ring|]. destruct l as [|q l]; [cbn [integral area time_on on_time map]; unfold first_time, last_time; cbn [hd last fst snd]; ring|].
  change (map (retime k c) (p :: q :: l)) with (retime k c p :: retime k c q :: map (retime k c) l).
  rewrite !on_time_cons. change (retime k c q :: map (retime k c) l) with (map (retime k c) (q :: l)).
  rewrite IH. cbn [retime fst snd]. destruct (Qle_bool mid ((snd p + snd q) / 2)); ring.
Qed.

Lemma measure_points : forall pts label d, first_time pts < last_time pts ->
  measure_duty_cycle_from_samples (of_points pts label) = Ok d ->
  exists mx mn, greatest (map snd pts) = Ok mx /\ smallest (map snd pts) = Ok mn /\
    d == on_time ((mx + mn) / 2) pts / (last_time pts - first_time pts).
Proof.
  intros pts label d T H. unfold measure_duty_cycle_from_samples, of_points in H. cbn [w_data w_time] in H.
  destruct (Nat.ltb (List.length (map snd pts)) 2) eqn:L; [discriminate|]. apply Nat.ltb_ge in L.
  assert (NE : pts <> []) by (intros ->; cbn in L; lia).
  destruct (greatest (map snd pts)) as [mx| | |] eqn:G; try discriminate.
  destruct (smallest (map snd pts)) as [mn| | |] eqn:S; try discriminate.
  cbn [bind] in H. rewrite !map_length, Nat.eqb_refl in H.
  rewrite (back_points pts NE), (front_points pts NE) in H. cbn [bind] in H.
  destruct (Qlt_bool 0 (last_time pts - first_time pts)) eqn:P; qb; [|lra].
  rewrite combine_map in H. injection H as <-.
  exists mx, mn. repeat split; auto. rewrite time_on_on_time. unfold Qdiv. ring.
Qed.

Lemma measure_total : forall pts label, (2 <= List.length pts)%nat ->
  exists d, measure_duty_cycle_from_samples (of_points pts label) = Ok d.
Proof.
  intros pts label L. unfold measure_duty_cycle_from_samples, of_points. cbn [w_data w_time].
  assert (NE : pts <> []) by (intros ->; cbn in L; lia).
  rewrite map_length. destruct (Nat.ltb (List.length pts) 2) eqn:B; [apply Nat.ltb_lt in B; lia|].
  assert (NE' : map snd pts <> []) by (destruct pts; [congruence|discriminate]).
  destruct (greatest_total _ NE') as [mx ->]. destruct (smallest_total _ NE') as [mn ->].
  cbn [bind]. rewrite map_length, Nat.eqb_refl, (back_points pts NE), (front_points pts NE). cbn [bind].
  destruct (Qlt_bool 0 (last_time pts - first_time pts)); eexists; reflexivity.
Qed.
