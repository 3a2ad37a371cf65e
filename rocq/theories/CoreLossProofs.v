(** Lemmas about the Steinmetz family of core-loss models. *)
From Coq Require Import Reals List Lra Lia ZArith String Permutation.
From Verif Require Import Base SizingModel SizingProofs CoreLossModel.
Import ListNotations.
Local Open Scope R_scope.
Local Open Scope outcome_scope.

(** ** Powers *)

Lemma cpow_pos : forall x y, 0 < x -> cpow x y = Some (Rpower x y).
Proof. intros x y H. unfold cpow. destruct (Rlt_dec 0 x); [reflexivity|contradiction]. Qed.

Lemma cpow_0 : forall y, 0 < y -> cpow 0 y = Some 0.
Proof.
  intros y H. unfold cpow. destruct (Rlt_dec 0 0) as [L|_]; [lra|].
  destruct (Req_EM_T 0 0) as [_|N]; [|contradiction].
  destruct (Rlt_dec 0 y); [reflexivity|contradiction].
Qed.

Lemma Rpower_pos : forall x y, 0 < Rpower x y.
Proof. intros x y. apply exp_pos. Qed.

(** The power of a number that is not negative, for positive exponents. *)
Definition pw (x a : R) : R := if Req_EM_T x 0 then 0 else Rpower x a.

Lemma pw_pos_eq : forall x a, 0 < x -> pw x a = Rpower x a.
Proof. intros x a H. unfold pw. destruct (Req_EM_T x 0); [lra|reflexivity]. Qed.

Lemma pw_0 : forall a, pw 0 a = 0.
Proof. intros a. unfold pw. destruct (Req_EM_T 0 0) as [_|N]; [reflexivity|contradiction]. Qed.

Lemma pw_nonneg : forall x a, 0 <= pw x a.
Proof. intros x a. unfold pw. destruct (Req_EM_T x 0); [lra|]. left. apply Rpower_pos. Qed.

Lemma pw_positive : forall x a, x <> 0 -> 0 < pw x a.
Proof. intros x a H. unfold pw. destruct (Req_EM_T x 0); [contradiction|]. apply Rpower_pos. Qed.

Lemma cpow_pw : forall x a, 0 <= x -> 0 < a -> cpow x a = Some (pw x a).
Proof.
  intros x a [H| <-] A.
  - rewrite cpow_pos, pw_pos_eq by assumption. reflexivity.
  - rewrite cpow_0, pw_0 by assumption. reflexivity.
Qed.

Lemma Rpower_le_base : forall x y a, 0 <= a -> 0 < x <= y -> Rpower x a <= Rpower y a.
Proof. intros x y a A H. apply Rle_Rpower_l; assumption. Qed.

Lemma pw_mono : forall x y a, 0 < a -> 0 <= x <= y -> pw x a <= pw y a.
Proof.
  intros x y a A [[H| <-] L].
  - rewrite !pw_pos_eq by lra. apply Rpower_le_base; lra.
  - rewrite pw_0. apply pw_nonneg.
Qed.

Lemma pw_strict : forall x y a, 0 < a -> 0 <= x < y -> pw x a < pw y a.
Proof.
  intros x y a A [[H| <-] L].
  - rewrite !pw_pos_eq by lra. apply Rlt_Rpower_l; lra.
  - rewrite pw_0. apply pw_positive. lra.
Qed.

Lemma pw_mult : forall x y a, 0 <= x -> 0 <= y -> pw (x * y) a = pw x a * pw y a.
Proof.
  intros x y a [X| <-] [Y| <-]; rewrite ?Rmult_0_l, ?Rmult_0_r, ?pw_0; try ring.
  pose proof (Rmult_lt_0_compat x y X Y).
  rewrite !pw_pos_eq by assumption. symmetry. apply Rpower_mult_distr; assumption.
Qed.

Lemma pw_div : forall x y a, 0 <= x -> 0 < y -> pw (x / y) a = pw x a / Rpower y a.
Proof.
  intros x y a X Y. unfold Rdiv. rewrite pw_mult; [|assumption|left; apply Rinv_0_lt_compat; assumption].
  f_equal. rewrite pw_pos_eq by (apply Rinv_0_lt_compat; assumption).
  unfold Rpower. rewrite ln_Rinv by assumption. rewrite <- exp_Ropp. f_equal. ring.
Qed.

Lemma powerRZ_scale : forall c x n, 0 < c -> x <> 0 -> powerRZ (c * x) n = powerRZ c n * powerRZ x n.
Proof.
  intros c x n C X. destruct n as [|p|p]; simpl.
  - ring.
  - apply Rpow_mult_distr.
  - rewrite Rpow_mult_distr. apply Rinv_mult.
Qed.

Lemma cpow_scale : forall c x y, 0 < c -> cpow (c * x) y = fmul (Some (Rpower c y)) (cpow x y).
Proof.
  intros c x y C. unfold cpow.
  destruct (Rlt_dec 0 x) as [X|X].
  - destruct (Rlt_dec 0 (c * x)) as [_|N]; [|exfalso; apply N; apply Rmult_lt_0_compat; assumption].
    simpl. f_equal. symmetry. apply Rpower_mult_distr; assumption.
  - destruct (Rlt_dec 0 (c * x)) as [P|_].
    { exfalso. apply X. apply Rmult_lt_reg_l with c; [assumption|]. lra. }
    destruct (Req_EM_T x 0) as [-> |NZ].
    + rewrite Rmult_0_r. destruct (Req_EM_T 0 0) as [_|N]; [|contradiction].
      destruct (Rlt_dec 0 y) as [Y|Y]; simpl; [f_equal; ring|].
      destruct (Req_EM_T y 0) as [-> |_]; simpl; [|reflexivity].
      rewrite Rpower_O by assumption. f_equal. ring.
    + destruct (Req_EM_T (c * x) 0) as [Z|_].
      { exfalso. apply Rmult_integral in Z. lra. }
      destruct (Req_EM_T (IZR (Int_part y)) y) as [I|_]; [|reflexivity].
      simpl. f_equal. rewrite powerRZ_scale by assumption. f_equal.
      rewrite powerRZ_Rpower by assumption. rewrite I. reflexivity.
Qed.

(** ** Figures *)

Lemma fmul_assoc : forall x y z, fmul x (fmul y z) = fmul (fmul x y) z.
Proof. intros [x|] [y|] [z|]; simpl; try reflexivity. f_equal. ring. Qed.

Lemma fmul_comm : forall x y, fmul x y = fmul y x.
Proof. intros [x|] [y|]; simpl; try reflexivity. f_equal. ring. Qed.

Lemma fadd_comm : forall x y, fadd x y = fadd y x.
Proof. intros [x|] [y|]; simpl; try reflexivity. f_equal. ring. Qed.

Lemma fadd_assoc : forall x y z, fadd x (fadd y z) = fadd (fadd x y) z.
Proof. intros [x|] [y|] [z|]; simpl; try reflexivity. f_equal. ring. Qed.

Lemma fmul_1 : forall x, fmul (Some 1) x = x.
Proof. intros [x|]; simpl; [f_equal; ring|reflexivity]. Qed.

Lemma fsum_permutation : forall l l', Permutation l l' -> fsum l = fsum l'.
Proof.
  induction 1; simpl; try reflexivity.
  - f_equal. assumption.
  - rewrite !fadd_assoc. f_equal. apply fadd_comm.
  - congruence.
Qed.

Lemma fsum_app : forall l l', fsum (l ++ l') = fadd (fsum l) (fsum l').
Proof.
  induction l as [|x l IH]; intros l'; simpl.
  - destruct (fsum l'); simpl; [f_equal; ring|reflexivity].
  - rewrite IH. apply fadd_assoc.
Qed.

Lemma fsum_scale : forall (A : Type) c (f g : A -> figure) l,
  (forall x, In x l -> g x = fmul (Some c) (f x)) -> fsum (map g l) = fmul (Some c) (fsum (map f l)).
Proof.
  intros A c f g l. induction l as [|x l IH]; intros H; simpl.
  - f_equal. ring.
  - rewrite (H x) by (left; reflexivity). rewrite IH by (intros y Y; apply H; right; exact Y).
    destruct (f x); [|reflexivity]. destruct (fsum (map f l)); simpl; [|reflexivity]. f_equal. ring.
Qed.

Lemma fsum_ext : forall (A : Type) (f g : A -> figure) l,
  (forall x, In x l -> f x = g x) -> fsum (map f l) = fsum (map g l).
Proof.
  intros A f g l H. f_equal. apply map_ext_in. exact H.
Qed.

Fixpoint sumR (l : list R) : R := match l with [] => 0 | x :: r => x + sumR r end.

Lemma fsum_some : forall (A : Type) (f : A -> figure) (g : A -> R) l,
  (forall x, In x l -> f x = Some (g x)) -> fsum (map f l) = Some (sumR (map g l)).
Proof.
  intros A f g l. induction l as [|x l IH]; intros H; simpl; [reflexivity|].
  rewrite (H x) by (left; reflexivity). rewrite IH by (intros y Y; apply H; right; exact Y). reflexivity.
Qed.

Lemma sumR_nonneg : forall l, (forall x, In x l -> 0 <= x) -> 0 <= sumR l.
Proof.
  induction l as [|x l IH]; intros H; simpl; [lra|].
  pose proof (H x (or_introl eq_refl)). pose proof (IH (fun y Y => H y (or_intror Y))). lra.
Qed.

Lemma sumR_app : forall l l', sumR (l ++ l') = sumR l + sumR l'.
Proof. induction l as [|x l IH]; intros l'; simpl; [ring|]. rewrite IH. ring. Qed.

Lemma sumR_zero : forall l, (forall x, In x l -> 0 <= x) -> sumR l = 0 -> forall x, In x l -> x = 0.
Proof.
  induction l as [|a l IH]; intros H E x X; [contradiction|]. simpl in E.
  pose proof (H a (or_introl eq_refl)) as A.
  pose proof (sumR_nonneg l (fun y Y => H y (or_intror Y))) as B.
  destruct X as [-> |X]; [lra|]. apply IH; [intros y Y; apply H; right; exact Y|lra|exact X].
Qed.

Lemma sumR_permutation : forall l l', Permutation l l' -> sumR l = sumR l'.
Proof. induction 1; simpl; lra. Qed.

Lemma sumR_le : forall (A : Type) (f g : A -> R) l,
  (forall x, In x l -> f x <= g x) -> sumR (map f l) <= sumR (map g l).
Proof.
  intros A f g l. induction l as [|x l IH]; intros H; simpl; [lra|].
  pose proof (H x (or_introl eq_refl)). pose proof (IH (fun y Y => H y (or_intror Y))). lra.
Qed.

Lemma sumR_scale : forall (A : Type) c (f g : A -> R) l,
  (forall x, In x l -> g x = c * f x) -> sumR (map g l) = c * sumR (map f l).
Proof.
  intros A c f g l. induction l as [|x l IH]; intros H; simpl; [ring|].
  rewrite (H x) by (left; reflexivity). rewrite IH by (intros y Y; apply H; right; exact Y). ring.
Qed.

(** ** The choice of the coefficients *)

Definition holds (d : steinmetz) (f : R) : Prop :=
  exists a b, minimum_frequency d = Some a /\ maximum_frequency d = Some b /\ a <= f <= b.
Definition bounded (d : steinmetz) : Prop :=
  exists a b, minimum_frequency d = Some a /\ maximum_frequency d = Some b.

Lemma lookup_inside : forall ranges f low high lo hi d,
  lookup ranges f low high lo hi = Ok d ->
  (exists before after, ranges = before ++ d :: after /\ holds d f /\
     Forall (fun x => bounded x /\ ~ holds x f) before)
  \/ Forall (fun x => bounded x /\ ~ holds x f) ranges.
Proof.
  induction ranges as [|x rest IH]; intros f low high lo hi d E; [right; constructor|].
  simpl in E. destruct (minimum_frequency x) as [a|] eqn:A; [|discriminate].
  destruct (maximum_frequency x) as [b|] eqn:B; [|discriminate].
  assert (Bx : bounded x) by (exists a, b; auto).
  assert (step : ~ holds x f -> forall low' high' lo' hi', lookup rest f low' high' lo' hi' = Ok d ->
            (exists before after, x :: rest = before ++ d :: after /\ holds d f /\
               Forall (fun x => bounded x /\ ~ holds x f) before)
            \/ Forall (fun x => bounded x /\ ~ holds x f) (x :: rest)).
  { intros N low' high' lo' hi' E'. destruct (IH _ _ _ _ _ _ E') as [(be & af & -> & H & F)|F].
    - left. exists (x :: be), af. repeat split; auto.
    - right. constructor; auto. }
  destruct (Rle_dec a f) as [L|L].
  - destruct (Rle_dec f b) as [U|U].
    + injection E as <-. left. exists [], rest. repeat split; [|constructor]. exists a, b. auto.
    + destruct (Rlt_dec a low), (Rlt_dec high b); eapply step; try exact E;
        intros (a' & b' & A' & B' & H); rewrite A in A'; rewrite B in B';
        injection A' as <-; injection B' as <-; lra.
  - destruct (Rlt_dec a low), (Rlt_dec high b); eapply step; try exact E;
      intros (a' & b' & A' & B' & H); rewrite A in A'; rewrite B in B';
      injection A' as <-; injection B' as <-; lra.
Qed.

Definition minimum_of (d : steinmetz) (a : R) := minimum_frequency d = Some a.
Definition maximum_of (d : steinmetz) (b : R) := maximum_frequency d = Some b.

(** What the two records keep. *)
Definition lowest_ok (seen : list steinmetz) (low : R) (lo : option steinmetz) : Prop :=
  (forall x a, In x seen -> minimum_of x a -> low <= a) /\
  match lo with Some d => In d seen /\ minimum_of d low | None => low = 100000000 end.
Definition highest_ok (seen : list steinmetz) (high : R) (hi : option steinmetz) : Prop :=
  (forall x b, In x seen -> maximum_of x b -> b <= high) /\
  match hi with Some d => In d seen /\ maximum_of d high | None => high = 0 end.

Lemma lowest_step : forall seen low lo x a,
  lowest_ok seen low lo -> minimum_of x a ->
  lowest_ok (seen ++ [x]) (if Rlt_dec a low then a else low) (if Rlt_dec a low then Some x else lo).
Proof.
  intros seen low lo x a [H R] A. destruct (Rlt_dec a low) as [L|L]; split.
  - intros y b Y M. apply in_app_or in Y. destruct Y as [Y|[<-|[]]].
    + pose proof (H _ _ Y M). lra.
    + unfold minimum_of in *. rewrite A in M. injection M as <-. lra.
  - split; [apply in_or_app; right; left; reflexivity|exact A].
  - intros y b Y M. apply in_app_or in Y. destruct Y as [Y|[<-|[]]].
    + exact (H _ _ Y M).
    + unfold minimum_of in *. rewrite A in M. injection M as <-. lra.
  - destruct lo as [d|]; [|exact R]. destruct R as [I M]. split; [apply in_or_app; left; exact I|exact M].
Qed.

Lemma highest_step : forall seen high hi x b,
  highest_ok seen high hi -> maximum_of x b ->
  highest_ok (seen ++ [x]) (if Rlt_dec high b then b else high) (if Rlt_dec high b then Some x else hi).
Proof.
  intros seen high hi x b [H R] A. destruct (Rlt_dec high b) as [L|L]; split.
  - intros y c Y M. apply in_app_or in Y. destruct Y as [Y|[<-|[]]].
    + pose proof (H _ _ Y M). lra.
    + unfold maximum_of in *. rewrite A in M. injection M as <-. lra.
  - split; [apply in_or_app; right; left; reflexivity|exact A].
  - intros y c Y M. apply in_app_or in Y. destruct Y as [Y|[<-|[]]].
    + exact (H _ _ Y M).
    + unfold maximum_of in *. rewrite A in M. injection M as <-. lra.
  - destruct hi as [d|]; [|exact R]. destruct R as [I M]. split; [apply in_or_app; left; exact I|exact M].
Qed.

(** The loop once no range holds the frequency. *)
Lemma lookup_outside : forall ranges f seen low high lo hi,
  lowest_ok seen low lo -> highest_ok seen high hi ->
  Forall (fun x => bounded x /\ ~ holds x f) ranges ->
  exists low' high' lo' hi', lowest_ok (seen ++ ranges) low' lo' /\ highest_ok (seen ++ ranges) high' hi' /\
    lookup ranges f low high lo hi =
      match (if Rlt_dec f low' then lo' else None) with
      | Some d => Ok d
      | None => match (if Rlt_dec high' f then hi' else None) with
                | Some d => Ok d
                | None => Throw "CalculationException"
                end
      end.
Proof.
  induction ranges as [|x rest IH]; intros f seen low high lo hi L H F.
  - exists low, high, lo, hi. rewrite app_nil_r. auto.
  - inversion F as [|? ? [(a & b & A & B) N] F']; subst. simpl. rewrite A, B.
    pose proof (lowest_step seen low lo x a L A) as L'.
    pose proof (highest_step seen high hi x b H B) as H'.
    destruct (IH f (seen ++ [x])
                (if Rlt_dec a low then a else low) (if Rlt_dec high b then b else high)
                (if Rlt_dec a low then Some x else lo) (if Rlt_dec high b then Some x else hi) L' H' F')
      as (low' & high' & lo' & hi' & P & Q & E).
    exists low', high', lo', hi'. rewrite <- app_assoc in P, Q. split; [exact P|]. split; [exact Q|].
    rewrite <- E. destruct (Rle_dec a f) as [La|La].
    + destruct (Rle_dec f b) as [Ub|Ub]; [exfalso; apply N; exists a, b; auto|].
      destruct (Rlt_dec a low), (Rlt_dec high b); reflexivity.
    + destruct (Rlt_dec a low), (Rlt_dec high b); reflexivity.
Qed.

Lemma lookup_first : forall before d after f low high lo hi,
  Forall (fun x => bounded x /\ ~ holds x f) before -> holds d f ->
  lookup (before ++ d :: after) f low high lo hi = Ok d.
Proof.
  induction before as [|x rest IH]; intros d after f low high lo hi F H.
  - destruct H as (a & b & A & B & L & U). simpl. rewrite A, B.
    destruct (Rle_dec a f); [|contradiction]. destruct (Rle_dec f b); [reflexivity|contradiction].
  - inversion F as [|? ? [(a & b & A & B) N] F']; subst. simpl. rewrite A, B.
    destruct (Rle_dec a f) as [La|La].
    + destruct (Rle_dec f b) as [Ub|Ub]; [exfalso; apply N; exists a, b; auto|].
      destruct (Rlt_dec a low), (Rlt_dec high b); apply IH; assumption.
    + destruct (Rlt_dec a low), (Rlt_dec high b); apply IH; assumption.
Qed.

Lemma lookup_unbounded : forall before d after f low high lo hi,
  Forall (fun x => bounded x /\ ~ holds x f) before -> ~ bounded d ->
  lookup (before ++ d :: after) f low high lo hi = Throw "MaterialException".
Proof.
  induction before as [|x rest IH]; intros d after f low high lo hi F H.
  - simpl. destruct (minimum_frequency d) as [a|] eqn:A; [|reflexivity].
    destruct (maximum_frequency d) as [b|] eqn:B; [|reflexivity].
    exfalso. apply H. exists a, b. auto.
  - inversion F as [|? ? [(a & b & A & B) N] F']; subst. simpl. rewrite A, B.
    destruct (Rle_dec a f) as [La|La].
    + destruct (Rle_dec f b) as [Ub|Ub]; [exfalso; apply N; exists a, b; auto|].
      destruct (Rlt_dec a low), (Rlt_dec high b); apply IH; assumption.
    + destruct (Rlt_dec a low), (Rlt_dec high b); apply IH; assumption.
Qed.

Lemma holds_dec : forall d f, holds d f \/ ~ holds d f.
Proof.
  intros d f. unfold holds. destruct (minimum_frequency d) as [a|]; [|right; intros (? & ? & E & _); discriminate].
  destruct (maximum_frequency d) as [b|]; [|right; intros (? & ? & _ & E & _); discriminate].
  destruct (Rle_dec a f) as [A|A]; [|right; intros (? & ? & E & _ & H & _); injection E as <-; contradiction].
  destruct (Rle_dec f b) as [B|B]; [|right; intros (? & ? & _ & E & _ & H); injection E as <-; contradiction].
  left. exists a, b. auto.
Qed.

Lemma first_holding : forall ranges f, Forall bounded ranges ->
  (exists before d after, ranges = before ++ d :: after /\ holds d f /\
     Forall (fun x => bounded x /\ ~ holds x f) before)
  \/ Forall (fun x => bounded x /\ ~ holds x f) ranges.
Proof.
  induction ranges as [|x rest IH]; intros f F; [right; constructor|].
  inversion F; subst. destruct (holds_dec x f) as [H|N].
  - left. exists [], x, rest. repeat split; [exact H|constructor].
  - destruct (IH f) as [(be & d & af & -> & H' & F')|F']; [assumption|..].
    + left. exists (x :: be), d, af. repeat split; auto.
    + right. constructor; auto.
Qed.

(** ** The temperature *)

Lemma temperature_factor_pos : forall d t, 0 < temperature_factor d t.
Proof.
  intros d t. unfold temperature_factor.
  destruct (ct0 d) as [c0|]; [|lra]. destruct (ct1 d) as [c1|]; [|lra]. destruct (ct2 d) as [c2|]; [|lra].
  cbv zeta. destruct (Rlt_dec 0 (c2 * t ^ 2 - c1 * t + c0)); lra.
Qed.
