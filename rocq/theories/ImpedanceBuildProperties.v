(** C185 to C188: least number of turns for an impedance, coils without turns, the self
    resonant frequency and the permittivity of a core. *)
From Coq Require Import Reals List Bool String ZArith QArith Lia Lra Permutation Sorting.Sorted.
From Verif Require Import Base UtilsNumModel NumberTurnsModel NumberTurnsProperties ImpedanceModel ImpedanceProofs ImpedanceProperties.
Import ListNotations.
Local Open Scope R_scope.

(** * C185: least number of turns *)
(** A requirement is a frequency and the magnitude wanted there.  With [n] turns it is
    met, within a quarter of the resonance. *)
Definition good_turns (impedance : Z -> R -> R) (resonance : Z -> R) (reqs : list (R * R)) (n : Z) : Prop :=
  forall f z, In (f, z) reqs -> z <= impedance n f /\ f <= resonance n / 4.
Definition beyond (resonance : Z -> R) (reqs : list (R * R)) (n : Z) : Prop :=
  exists f z, In (f, z) reqs /\ resonance n / 4 < f.

Lemma meets_all_spec : forall imp res reqs v,
  (meets_all imp res reqs v = None <-> exists f z, In (f, z) reqs /\ res / 4 < f)
  /\ (forall b, meets_all imp res reqs v = Some b ->
        (b = true <-> v = true /\ forall f z, In (f, z) reqs -> z <= imp f)).
Proof.
  intros imp res reqs. induction reqs as [|[f z] reqs IH]; intro v; cbn [meets_all].
  - split; [split; [discriminate | intros (f & z & [] & _)]|]. intros b H. injection H as <-. split; [intro; split; [assumption | intros f z []] | tauto].
  - destruct (Rlt_dec (1 / 4 * res) f) as [L|L].
    + split; [|discriminate]. split; [|reflexivity]. intros _. exists f, z. split; [left; reflexivity | lra].
    + destruct (IH (if Rlt_dec (imp f) z then false else v)) as (A & B). split.
      * rewrite A. split; intros (f' & z' & I & H); exists f', z'; (split; [|exact H]); [right; exact I|].
        destruct I as [I|I]; [injection I as <- <-; lra | exact I].
      * intros b H. rewrite (B b H). destruct (Rlt_dec (imp f) z) as [Lt|Lt].
        -- split; [intros (X & _); discriminate | intros (_ & X)]. specialize (X f z (or_introl eq_refl)). lra.
        -- split; intros (X & Y); (split; [exact X|]); intros f' z' I; [destruct I as [I|I]; [injection I as <- <-; lra | apply Y, I] | apply Y; right; exact I].
Qed.
Lemma tried : forall imp res reqs n,
  (meets_all (imp n) (res n) reqs true = None <-> beyond res reqs n)
  /\ (meets_all (imp n) (res n) reqs true = Some true <-> good_turns imp res reqs n)
  /\ (meets_all (imp n) (res n) reqs true = Some false <-> ~ good_turns imp res reqs n /\ ~ beyond res reqs n).
Proof.
  intros imp res reqs n. destruct (meets_all_spec (imp n) (res n) reqs true) as (A & B).
  assert (G : meets_all (imp n) (res n) reqs true = Some true <-> good_turns imp res reqs n).
  { split.
    - intro H. pose proof (proj1 (B true H) eq_refl) as (_ & X). intros f z I. split; [apply X, I|].
      destruct (Rle_dec f (res n / 4)) as [L|L]; [exact L|]. assert (N : meets_all (imp n) (res n) reqs true = None) by (apply A; exists f, z; split; [exact I | lra]). congruence.
    - intro H. destruct (meets_all (imp n) (res n) reqs true) as [b|] eqn:E.
      + f_equal. apply (B b eq_refl). split; [reflexivity | intros f z I; apply H, I].
      + pose proof (proj1 A eq_refl) as (f & z & I & L). destruct (H f z I). lra. }
  split; [exact A|]. split; [exact G|]. rewrite <- G. unfold beyond. rewrite <- A. destruct (meets_all _ _ _ _) as [[|]|]; split; intro H; try discriminate; try (split; discriminate); try reflexivity; destruct H as (P & Q); congruence.
Qed.

Lemma search_plain : forall t p, (0 <= p)%Z -> search (S (S t)) [] 1 p = ([(p + 1)%Z], Ok tt).
Proof.
  intros t p P. cbn [search]. unfold advance. cbn [Z.eqb]. change (Z.to_nat 1) with 1%nat. cbn [round_up]. rewrite Zmod_1_r. cbn [Z.eqb attempt]. reflexivity.
Qed.
Definition plain (p : Z) : generator := {| current := [p]; ratios := [] |}.
Lemma next_plain : forall p, (0 <= p)%Z -> get_next 1 (plain p) = (plain (p + 1), Ok [p]).
Proof. intros p P. unfold get_next, increment, plain. cbn [current ratios]. rewrite (search_plain 998 p P). reflexivity. Qed.
Lemma create_plain : create (inject_Z 1) [] = Ok (plain 1).
Proof. reflexivity. Qed.

Lemma search_all : forall imp res reqs t p, (1 <= p)%Z ->
  exists n, turns_search t imp res reqs (plain p) = Ok n
  /\ ((n = (-1)%Z /\ exists k, (p <= k <= p + Z.of_nat t)%Z
         /\ (forall j, (p <= j < k)%Z -> ~ good_turns imp res reqs j /\ ~ beyond res reqs j)
         /\ (beyond res reqs k \/ k = (p + Z.of_nat t)%Z /\ ~ good_turns imp res reqs k))
     \/ ((p <= n <= p + Z.of_nat t)%Z /\ good_turns imp res reqs n
         /\ forall j, (p <= j < n)%Z -> ~ good_turns imp res reqs j /\ ~ beyond res reqs j)).
Proof.
  intros imp res reqs t. induction t as [|t IH]; intros p P; cbn [turns_search]; rewrite (next_plain p) by lia;
    destruct (tried imp res reqs p) as (A & B & C); destruct (meets_all (imp p) (res p) reqs true) as [[|]|].
  - exists p. split; [reflexivity|]. right. split; [lia|]. split; [apply B; reflexivity | intros j J; lia].
  - exists (-1)%Z. split; [reflexivity|]. left. split; [reflexivity|]. exists p. split; [lia|]. split; [intros j J; lia|].
    right. split; [lia | apply C; reflexivity].
  - exists (-1)%Z. split; [reflexivity|]. left. split; [reflexivity|]. exists p. split; [lia|]. split; [intros j J; lia|].
    left. apply A. reflexivity.
  - exists p. split; [reflexivity|]. right. split; [lia|]. split; [apply B; reflexivity | intros j J; lia].
  - destruct (IH (p + 1)%Z ltac:(lia)) as (n & -> & H). exists n. split; [reflexivity|]. pose proof (proj1 C eq_refl) as Here.
    destruct H as [(-> & k & K & Before & End)|(N & G & Before)].
    + left. split; [reflexivity|]. exists k. split; [lia|]. split.
      * intros j J. destruct (Z.eq_dec j p) as [->|Ne]; [exact Here | apply Before; lia].
      * destruct End as [E|(E & E')]; [left; exact E | right; split; [lia | exact E']].
    + right. split; [lia|]. split; [exact G|]. intros j J. destruct (Z.eq_dec j p) as [->|Ne]; [exact Here | apply Before; lia].
  - exists (-1)%Z. split; [reflexivity|]. left. split; [reflexivity|]. exists p. split; [lia|]. split; [intros j J; lia|].
    left. apply A. reflexivity.
Qed.

(** Without turns ratios: the least number of turns that meets every requirement. *)
Theorem C185_least : forall imp res reqs n, minimum_turns imp res (Some reqs) [] = Ok n -> n <> (-1)%Z ->
  (1 <= n <= 201)%Z /\ good_turns imp res reqs n
  /\ forall j, (1 <= j < n)%Z -> ~ good_turns imp res reqs j.
Proof.
  intros imp res reqs n H N. unfold minimum_turns in H. rewrite create_plain in H.
  destruct (search_all imp res reqs 200 1 ltac:(lia)) as (n' & E & [(M & _)|(M & G & B)]).
  - rewrite E in H. injection H as <-. contradiction.
  - rewrite E in H. injection H as <-. change (Z.of_nat 200) with 200%Z in M. split; [lia|]. split; [exact G|]. intros j J. apply B, J.
Qed.
(** And -1 only when a smaller number met nothing and a frequency passes a quarter of
    the resonance, or the limit is reached.  When the resonance falls as turns are
    added, no number up to the limit would have done. *)
Theorem C185_none : forall imp res reqs, minimum_turns imp res (Some reqs) [] = Ok (-1)%Z ->
  (forall i j, (1 <= i <= j)%Z -> res j <= res i) ->
  forall n, (1 <= n <= 201)%Z -> ~ good_turns imp res reqs n.
Proof.
  intros imp res reqs H Fall n N G. unfold minimum_turns in H. rewrite create_plain in H.
  destruct (search_all imp res reqs 200 1 ltac:(lia)) as (n' & E & [(M & k & K & B & End)|(M & _)]); rewrite E in H; injection H as ->; [|lia].
  change (Z.of_nat 200) with 200%Z in *. destruct (Z_lt_le_dec n k) as [L|L]; [apply (proj1 (B n ltac:(lia)) G)|].
  destruct End as [(f & z & I & Be)|(-> & Ng)].
  - destruct (G f z I) as (_ & F). pose proof (Fall k n ltac:(lia)). lra.
  - assert (n = (1 + 200)%Z) by lia. subst n. contradiction.
Qed.
Theorem C185_total : forall imp res reqs, exists n, minimum_turns imp res (Some reqs) [] = Ok n /\ (n = (-1)%Z \/ (1 <= n <= 201)%Z).
Proof.
  intros imp res reqs. unfold minimum_turns. rewrite create_plain. destruct (search_all imp res reqs 200 1 ltac:(lia)) as (n & E & H).
  exists n. split; [exact E|]. change (Z.of_nat 200) with 200%Z in H. destruct H as [(-> & _)|(H & _)]; [left; reflexivity | right; lia].
Qed.
(** A number that does exist is missed beyond 201 turns, and behind a resonance that is
    not met with fewer turns. *)
Theorem C185_limit_refuted :
  minimum_turns (fun n _ => IZR n) (fun _ => 1000) (Some [(1, 300)]) [] = Ok (-1)%Z
  /\ good_turns (fun n _ => IZR n) (fun _ => 1000) [(1, 300)] 300.
Proof.
  split.
  - unfold minimum_turns. rewrite create_plain. destruct (search_all (fun n _ => IZR n) (fun _ => 1000) [(1, 300)] 200 1 ltac:(lia)) as (n & E & H).
    rewrite E. destruct H as [(-> & _)|(N & G & _)]; [reflexivity|]. exfalso. destruct (G 1 300 (or_introl eq_refl)) as (L & _).
    change (Z.of_nat 200) with 200%Z in N. apply le_IZR in L. lia.
  - intros f z [I|[]]. injection I as <- <-. lra.
Qed.
(** With turns ratios, the number is the first of a combination that meets them. *)
Theorem C185_ratios : forall imp res reqs ratios n, minimum_turns imp res (Some reqs) ratios = Ok n -> n <> (-1)%Z ->
  good_turns imp res reqs n /\ exists others, good_combination ratios n others.
Proof.
  intros imp res reqs rs n. unfold minimum_turns. destruct (create (inject_Z 1) rs) as [g|e|e|] eqn:C; try discriminate.
  apply create_sane in C. generalize 200%nat. intro t. revert g C. induction t as [|t IH]; intros g C H N; cbn [turns_search] in H.
  - unfold get_next in H. destruct (increment 1 g) as [g' [[]|e|e|]] eqn:I; try discriminate.
    pose proof C as (_ & _ & p & ss & Cu & _ & Gc). rewrite Cu in H. destruct (tried imp res reqs p) as (_ & B & _).
    destruct (meets_all _ _ _ _) as [[|]|]; injection H as <-; try contradiction. split; [apply B; reflexivity | eauto].
  - unfold get_next in H. destruct (increment 1 g) as [g' [[]|e|e|]] eqn:I; try discriminate.
    pose proof C as (_ & _ & p & ss & Cu & _ & Gc). rewrite Cu in H. destruct (tried imp res reqs p) as (_ & B & _).
    destruct (meets_all _ _ _ _) as [[|]|].
    + injection H as <-. split; [apply B; reflexivity | eauto].
    + apply (IH g'); [|exact H|exact N]. apply (increment_sane rs 1 g g' Z.lt_0_1 C I).
    + injection H as <-. contradiction.
Qed.
(** The order of the requirements does not matter. *)
Theorem C185_order : forall imp res reqs reqs' ratios, Permutation reqs reqs' ->
  minimum_turns imp res (Some reqs) ratios = minimum_turns imp res (Some reqs') ratios.
Proof.
  intros imp res reqs reqs' rs P. unfold minimum_turns. destruct (create (inject_Z 1) rs) as [g|e|e|]; [|reflexivity..].
  assert (M : forall n, meets_all (imp n) (res n) reqs true = meets_all (imp n) (res n) reqs' true).
  { intro n. destruct (tried imp res reqs n) as (A & B & C). destruct (tried imp res reqs' n) as (A' & B' & C').
    assert (Gd : good_turns imp res reqs n <-> good_turns imp res reqs' n).
    { split; intros G f z I; apply G; [apply Permutation_sym in P|]; exact (Permutation_in _ P I). }
    assert (By : beyond res reqs n <-> beyond res reqs' n).
    { split; intros (f & z & I & L); exists f, z; (split; [|exact L]); [|apply Permutation_sym in P]; exact (Permutation_in _ P I). }
    destruct (meets_all (imp n) (res n) reqs true) as [[|]|]; symmetry; [apply B', Gd, B | apply C'; rewrite <- Gd, <- By; apply C | apply A', By, A]; reflexivity. }
  generalize 200%nat. intro t. revert g. induction t as [|t IH]; intro g; cbn [turns_search]; destruct (get_next 1 g) as [g' [[|n l]|e|e|]]; try reflexivity; rewrite M; [reflexivity|].
  destruct (meets_all (imp n) (res n) reqs' true) as [[|]|]; try reflexivity. apply IH.
Qed.
Theorem C185_missing : forall imp res ratios n, minimum_turns imp res None ratios <> Ok n.
Proof. intros imp res rs n. unfold minimum_turns. destruct (create (inject_Z 1) rs); discriminate. Qed.
(** 25 ohm at one frequency, an ohm per squared turn: five turns. *)
Example C185_witness : minimum_turns (fun n _ => IZR (n * n)) (fun _ => 1000) (Some [(1, 25)]) [] = Ok 5%Z.
Proof.
  destruct (C185_total (fun n _ => IZR (n * n)) (fun _ => 1000) [(1, 25)]) as (n & E & N). rewrite E. f_equal.
  destruct N as [->|N].
  - exfalso. apply (C185_none _ _ _ E) with 5%Z; [intros; lra | lia|]. intros f z [I|[]]. injection I as <- <-. cbn. lra.
  - destruct (C185_least _ _ _ n E ltac:(lia)) as (_ & G & L). destruct (Z_lt_le_dec n 5) as [S|S].
    + destruct (G 1 25 (or_introl eq_refl)) as (Le & _). apply le_IZR in Le. nia.
    + destruct (Z.eq_dec n 5) as [|Ne]; [assumption|]. exfalso. apply (L 5%Z ltac:(lia)). intros f z [I|[]]. injection I as <- <-. cbn. lra.
Qed.

(** * C186, C187: coils without turns and the self resonant frequency *)
Section Building.
Variable slab : complex -> R -> option complex.
Variable coil : Type.
Variable wound : coil -> bool.
Variable wind unsectioned : coil -> coil.
Variable winding_turns : coil -> list R.
Variable capacitance_model : Type.
Variable albach : capacitance_model.
Variable stray : capacitance_model -> coil -> nat -> nat -> R.
Variable one_layer : coil -> R.
Variable leakage : coil -> R -> nat -> R.
Variable dc_resistances : coil -> list R.
Variable skin_of : coil -> list (R * (R -> R)).
Variable proximity_of : coil -> nat -> R -> R.
Notation impedance := (calculate_impedance slab coil wound wind unsectioned winding_turns capacitance_model stray one_layer).
Notation magnetizing := (magnetizing_tank coil wound wind unsectioned winding_turns capacitance_model stray one_layer).
Notation wide := (wideband_model coil wound wind unsectioned winding_turns capacitance_model albach stray one_layer leakage
                    dc_resistances skin_of proximity_of).
Notation differential := (differential_parameters coil wound wind winding_turns capacitance_model albach stray leakage dc_resistances).
Notation resonance := (self_resonance coil wound wind winding_turns capacitance_model albach stray one_layer).
Notation keeps := (winding_keeps_turns coil wind unsectioned winding_turns).

(** A coil that can be wound at all, as it is or after dropping its sections. *)
Definition windable (c : coil) : Prop := wound c = true \/ wound (wind c) = true \/ wound (wind (unsectioned c)) = true.

(** The impedance of a magnetic with a processed core and a winding is given exactly
    when its coil can be wound, or always with the estimated capacitance. *)
Theorem C186_impedance : forall fc chosen g f,
  (exists z, impedance fc chosen g f = Ok z)
  <-> g_processed coil g <> None /\ winding_turns (g_coil coil g) <> [] /\ (fc = true \/ windable (g_coil coil g)).
Proof.
  intros fc chosen g f. unfold calculate_impedance, common_mode_model, magnetizing_tank, prepared, stray_of, windable.
  destruct (g_processed coil g) as [[r cols]|]; [|split; [intros (z & H); discriminate | tauto]].
  destruct (winding_turns (g_coil coil g)) as [|n l]; [split; [intros (z & H); discriminate | tauto]|]. cbv zeta.
  destruct fc; [split; [intros _; repeat split; try discriminate; left; reflexivity | intros _; eauto]|].
  destruct (wound (g_coil coil g)) eqn:W1; [rewrite W1; split; [intros _; repeat split; try discriminate; tauto | intros _; eauto]|].
  destruct (wound (wind (g_coil coil g))) eqn:W2; [rewrite W2; split; [intros _; repeat split; try discriminate; tauto | intros _; eauto]|].
  destruct (wound (wind (unsectioned (g_coil coil g)))) eqn:W3; [rewrite W3; split; [intros _; repeat split; try discriminate; tauto | intros _; eauto]|].
  split; [intros (z & H); discriminate | intros (_ & _ & [H|[H|[H|H]]]); discriminate].
Qed.

(** With turns, every figure is given. *)
Lemma tanks_given : forall c f turns others i, wound c = true ->
  exists ts, leakage_tanks coil wound capacitance_model albach stray leakage c c f turns others i = Ok ts.
Proof.
  intros c f turns others. induction others as [|n l IH]; intros i W; cbn [leakage_tanks]; [eauto|].
  unfold leakage_of, stray_of. rewrite W. destruct (IH (S i) W) as (ts & ->). destruct (Rle_dec _ 0); eauto.
Qed.
Theorem C186_wound : forall fc chosen fast reference g,
  g_processed coil g <> None -> winding_turns (g_coil coil g) <> [] -> wound (g_coil coil g) = true ->
  exists m, wide fc chosen fast reference g = Ok m.
Proof.
  intros fc chosen fast reference g P N W. unfold wideband_model, magnetizing_tank, prepared, stray_of.
  destruct (g_processed coil g) as [[r cols]|] eqn:Gp; [|contradiction]. destruct (winding_turns (g_coil coil g)) as [|n l] eqn:Wt; [contradiction|].
  cbv zeta. rewrite W. destruct fc.
  - rewrite Wt. destruct l as [|n2 l]; [eauto|]. cbv zeta. rewrite !W. destruct (tanks_given (g_coil coil g) reference n (n2 :: l) 1 W) as (ts & ->). eexists. reflexivity.
  - rewrite W, Wt. destruct l as [|n2 l]; [eauto|]. cbv zeta. rewrite !W. destruct (tanks_given (g_coil coil g) reference n (n2 :: l) 1 W) as (ts & ->). eexists. reflexivity.
Qed.
(** Without, the wideband model winds the coil and then measures the leakage on the
    copy it did not wind: with the default capacitance no coil of several windings
    without turns is served, though its common-mode impedance is. *)
Theorem C186_wideband_unwound_refuted : forall chosen fast reference g n n2 others,
  keeps -> g_processed coil g <> None -> winding_turns (g_coil coil g) = n :: n2 :: others -> wound (g_coil coil g) = false ->
  windable (g_coil coil g) ->
  (forall m, wide false chosen fast reference g <> Ok m)
  /\ (forall f, exists z, impedance false chosen g f = Ok z)
  /\ (wound (wind (g_coil coil g)) = true -> exists m, wide true chosen fast reference g = Ok m).
Proof.
  intros chosen fast reference g n n2 others (K1 & K2) P T W Wd. split; [|split].
  - intros m H. unfold wideband_model in H.
    destruct (magnetizing false chosen (g_processed coil g) (g_coil coil g)) as [[t c]|e|e|] eqn:M; try discriminate.
    pose proof (magnetizing_keeps coil wound wind unsectioned winding_turns capacitance_model stray one_layer false chosen _ _ t c (conj K1 K2) M) as (Tk & _). rewrite Tk, T in H.
    assert (Wc : wound c = true).
    { unfold magnetizing_tank, prepared, stray_of in M. destruct (g_processed coil g) as [[r cols]|]; [|discriminate]. rewrite T in M. cbv zeta in M. rewrite W in M.
      destruct (wound (wind (g_coil coil g))) eqn:W2; [rewrite W2 in M; injection M as _ <-; exact W2|].
      destruct (wound (wind (unsectioned (g_coil coil g)))) eqn:W3; [rewrite W3 in M; injection M as _ <-; exact W3 | discriminate]. }
    rewrite Wc in H. cbn [leakage_tanks] in H. unfold leakage_of in H. rewrite W in H. destruct (stray_of _ _ _ _ _ _ _ _); discriminate.
  - intro f. apply C186_impedance. repeat split; [exact P | rewrite T; discriminate | right; exact Wd].
  - intro W2. unfold wideband_model, magnetizing_tank, stray_of. destruct (g_processed coil g) as [[r cols]|]; [|contradiction]. rewrite T. cbv zeta. rewrite T, !W, !W2.
    destruct (tanks_given (wind (g_coil coil g)) reference n (n2 :: others) 1 W2) as (ts & ->). eexists. reflexivity.
Qed.
(** The differential-mode parameters are never given for a coil without turns,
    although the code winds it. *)
Theorem C186_differential_unwound_refuted : forall reference c r, wound c = false -> differential reference c <> Ok r.
Proof.
  intros reference c r W. unfold differential_parameters, leakage_of. rewrite W. destruct (winding_turns c) as [|n [|n2 l]]; discriminate.
Qed.
Theorem C186_differential : forall reference c,
  wound c = true -> (2 <= List.length (winding_turns c))%nat -> dc_resistances c <> [] ->
  exists r, differential reference c = Ok (leakage c reference 1, r, stray albach c 0 1)
  /\ hd_error (dc_resistances c) = Some r.
Proof.
  intros reference c W N D. unfold differential_parameters, leakage_of, stray_of. rewrite !W.
  destruct (winding_turns c) as [|n [|n2 l]]; cbn in N; try lia. destruct (dc_resistances c) as [|r rest]; [contradiction|]. exists r. rewrite ?W. split; reflexivity.
Qed.

(** ** C187 *)
(** A lossless core: inductive below the resonance of its inductance with its
    capacitance, capacitive above, no finite impedance at it. *)
Theorem C187_sign : forall mu1 l c dims dc skin prox fast f,
  0 < f -> 0 < mu1 -> 0 < l -> 0 < c ->
  let resonant := 1 / (2 * PI * sqrt (l * mu1 * c)) in
  let z := impedance_from_model slab (mkWideband (Some (mkMaterial (fun _ => (mu1, 0)) None)) dims 1 [mkTank l c true 0 0] dc skin prox fast) f in
  (f < resonant -> exists x, z = Some x /\ 0 < snd x)
  /\ (resonant < f -> exists x, z = Some x /\ snd x < 0)
  /\ (f = resonant -> z = None).
Proof.
  intros mu1 l c dims dc skin prox fast f F M L C resonant z. pose proof PI_RGT_0 as Pi.
  assert (Lc : 0 < l * mu1 * c) by (repeat apply Rmult_lt_0_compat; assumption).
  pose proof (sqrt_lt_R0 _ Lc) as Sq. pose proof (sqrt_sqrt _ (Rlt_le _ _ Lc)) as SS. set (q := sqrt (l * mu1 * c)) in *.
  assert (Z : z = shunted f (0, 2 * PI * f * l * mu1) c).
  { unfold z, impedance_from_model, effective_permeability, attenuation. cbn [w_material mt_permittivity mt_permeability obind w_tanks w_scaling cascade].
    rewrite osum_zero. unfold series_arm. cbn [t_core t_inductance t_capacitance]. f_equal. unfold cscale, ctimes. cbn [fst snd]. f_equal; ring. }
  assert (W : 0 < 2 * PI * f) by (apply Rmult_lt_0_compat; lra). set (b := 2 * PI * f * l * mu1) in *.
  assert (B : 0 < b) by (unfold b; apply Rmult_lt_0_compat; [apply Rmult_lt_0_compat|]; assumption). set (s := 2 * PI * f * c) in *.
  assert (S0 : 0 < s) by (unfold s; apply Rmult_lt_0_compat; assumption).
  assert (Bs : b * s = (2 * PI * f * q) ^ 2) by (unfold b, s; transitivity ((2 * PI * f) ^ 2 * (l * mu1 * c)); [ring | rewrite <- SS; ring]).
  assert (U : 0 < 2 * PI * f * q) by (apply Rmult_lt_0_compat; assumption).
  assert (Cmp : f = resonant * (2 * PI * f * q)) by (unfold resonant; field; split; lra).
  assert (Rp : 0 < resonant) by (unfold resonant; apply Rdiv_lt_0_compat; [lra | apply Rmult_lt_0_compat; lra]).
  assert (Val : z = if Req_EM_T (- / b + s) 0 then None else Some (0, / (/ b - s))).
  { rewrite Z. unfold shunted. destruct (Rlt_dec 0 c); [|lra]. cbv zeta. fold s. destruct (Req_EM_T s 0); [lra|].
    assert (I1 : cinverse (0, b) = Some (0, - / b)).
    { apply inverse_some. split; [intro E; injection E as E; lra|]. unfold square. cbn [fst snd]. f_equal; field; nra. }
    assert (I2 : cinverse (0, - 1 / s) = Some (0, s)).
    { apply inverse_some. split; [intro E; injection E as E; unfold Rdiv in E; pose proof (Rinv_0_lt_compat s S0); nra|]. unfold square. cbn [fst snd]. replace (0 * 0 + - 1 / s * (- 1 / s)) with (/ (s * s)) by (field; lra). f_equal; field; lra. }
    rewrite I1, I2. cbn [obind]. unfold cplus. cbn [fst snd]. rewrite Rplus_0_l.
    unfold cinverse, square. cbn [fst snd]. set (v := - / b + s). destruct (Req_EM_T v 0) as [V|V].
    - rewrite V, !Rmult_0_l, Rplus_0_l. destruct (Req_EM_T 0 0); [reflexivity | contradiction].
    - destruct (Req_EM_T (0 * 0 + v * v) 0) as [E|E]; [nra|]. f_equal. replace (/ b - s) with (- v) by (unfold v; ring). f_equal; field; assumption. }
  assert (Ib : / b * b = 1) by (apply Rinv_l; lra). pose proof (Rinv_0_lt_compat b B) as Ip.
  rewrite Val. split; [|split]; intro H.
  - assert (Lt : 2 * PI * f * q < 1) by nra. assert (b * s < 1) by (rewrite Bs; nra).
    assert (Gap : 0 < / b - s) by nra. destruct (Req_EM_T (- / b + s) 0); [lra|]. eexists. split; [reflexivity|]. cbn [snd]. apply Rinv_0_lt_compat, Gap.
  - assert (Lt : 1 < 2 * PI * f * q) by nra. assert (1 < b * s) by (rewrite Bs; nra).
    assert (Gap : / b - s < 0) by nra. destruct (Req_EM_T (- / b + s) 0); [lra|]. eexists. split; [reflexivity|]. cbn [snd]. apply Rinv_lt_0_compat, Gap.
  - assert (Eq : 2 * PI * f * q = 1) by nra. rewrite Eq in Bs. destruct (Req_EM_T (- / b + s) 0) as [|N]; [reflexivity|]. exfalso. apply N. nra.
Qed.

(** The frequency reported is the resonance of the magnetizing tank, with turns and the
    default model of the capacitance. *)
Theorem C187_of_the_tank_partial : forall g inductance temperature t c f,
  wound (g_coil coil g) = true ->
  magnetizing false albach (g_processed coil g) (g_coil coil g) = Ok (t, c) ->
  resonance false albach (g_coil coil g) inductance temperature = Ok f ->
  f = 1 / (2 * PI * sqrt (inductance None * t_capacitance t)).
Proof.
  intros g inductance temperature t c f W M H. unfold magnetizing_tank, prepared, stray_of, self_resonance in *.
  destruct (g_processed coil g) as [[r cols]|]; [|discriminate]. rewrite !W in H. unfold stray_of in H. rewrite !W in H.
  destruct (winding_turns (g_coil coil g)) as [|n l]; [discriminate|]. cbv zeta in M. rewrite W in M. rewrite W in M. injection M as <- <-. injection H as <-.
  cbn [t_capacitance]. destruct l as [|n2 l]; [|reflexivity]. cbn [List.length INR]. now rewrite Rmult_1_r.
Qed.
(** With the estimated capacitance and several windings it is not. *)
Theorem C187_fast_refuted : forall g chosen inductance temperature t c f n,
  List.length (winding_turns (g_coil coil g)) = n -> (2 <= n)%nat -> 0 < one_layer (g_coil coil g) -> 0 < inductance None ->
  magnetizing true chosen (g_processed coil g) (g_coil coil g) = Ok (t, c) ->
  resonance true chosen (g_coil coil g) inductance temperature = Ok f ->
  f = sqrt (INR n) * (1 / (2 * PI * sqrt (inductance None * t_capacitance t))).
Proof.
  intros g chosen inductance temperature t c f n N L C I M H. unfold magnetizing_tank, self_resonance in *.
  destruct (g_processed coil g) as [[r cols]|]; [|discriminate].
  destruct (winding_turns (g_coil coil g)) as [|n1 l]; [discriminate|]. cbv zeta in M. injection M as <- <-. injection H as <-. cbn [t_capacitance].
  destruct l as [|n2 l]; [cbn in N; lia|]. match goal with |- context [match ?k with O => 1 | S _ => INR ?k + 1 end] => change (match k with O => 1 | S _ => INR k + 1 end) with (INR (List.length (n1 :: n2 :: l))) end. rewrite N. pose proof PI_RGT_0.
  assert (Np : 0 < INR n) by (apply lt_0_INR; lia). set (x := one_layer _) in *. set (y := inductance None) in *.
  replace (y * (x * INR n)) with (INR n * (y * x)) by ring. rewrite (sqrt_mult (INR n) (y * x)); [|lra | nra].
  assert (0 < sqrt (INR n)) by (apply sqrt_lt_R0; lra). assert (0 < sqrt (y * x)) by (apply sqrt_lt_R0; nra). field. repeat split; lra.
Qed.
(** The temperature asked for and the model of the capacitance chosen change nothing. *)
Theorem C187_ignored_refuted : forall fc chosen chosen' c inductance t t',
  resonance fc chosen c inductance t = resonance fc chosen' c inductance t'.
Proof. reflexivity. Qed.
End Building.

(** The impedance of the same magnetic does follow the model chosen. *)
Theorem C187_model_refuted : exists (stray : bool -> nat -> nat -> nat -> R) (g : magnetic nat) t t',
  magnetizing_tank nat (fun _ => true) S S (fun _ => [10]) bool stray (fun _ => 1) false true (g_processed nat g) (g_coil nat g) = Ok (t, 0%nat)
  /\ magnetizing_tank nat (fun _ => true) S S (fun _ => [10]) bool stray (fun _ => 1) false false (g_processed nat g) (g_coil nat g) = Ok (t', 0%nat)
  /\ t_capacitance t' = 4 * t_capacitance t /\ 0 < t_capacitance t.
Proof.
  exists (fun (m : bool) (_ _ _ : nat) => if m then 1 else 4), (mkMagnetic nat (mkMaterial (fun _ => (2000, 0)) None) (Some (1000000, [])) 0%nat).
  eexists. eexists. split; [reflexivity|]. split; [reflexivity|]. cbn. lra.
Qed.


(** ** Witnesses: coils that are or are not wound ([true] or [false]), windings of 10 and
    5 turns, a processed core. *)
Definition pair_of_windings (w : bool) : magnetic bool := mkMagnetic bool ferrite (Some (1000000, [(1 / 100, 1 / 100)])) w.
Example C186_witness :
  winding_keeps_turns bool (fun _ => true) (fun c => c) (fun _ => [10; 5])
  /\ windable bool (fun c => c) (fun _ => true) (fun c => c) false
  /\ (forall m, wideband_model bool (fun c => c) (fun _ => true) (fun c => c) (fun _ => [10; 5]) unit tt (fun _ _ _ _ => 1) (fun _ => 1)
        (fun _ _ _ => 1) (fun _ => [1; 1]) (fun _ => []) (fun _ _ _ => 1) false tt true 1000 (pair_of_windings false) <> Ok m).
Proof.
  assert (K : winding_keeps_turns bool (fun _ => true) (fun c => c) (fun _ => [10; 5])) by (split; reflexivity).
  assert (W : windable bool (fun c => c) (fun _ => true) (fun c => c) false) by (right; left; reflexivity).
  split; [exact K|]. split; [exact W|].
  exact (proj1 (C186_wideband_unwound_refuted (fun _ _ => None) bool (fun c => c) (fun _ => true) (fun c => c) (fun _ => [10; 5]) unit tt (fun _ _ _ _ => 1) (fun _ => 1)
        (fun _ _ _ => 1) (fun _ => [1; 1]) (fun _ => []) (fun _ _ _ => 1) tt true 1000 (pair_of_windings false) 10 5 [] K ltac:(discriminate) eq_refl eq_refl W)).
Qed.
(** One henry (over a thousandth) and a nanofarad. *)
Example C187_witness : forall slab,
  let m := mkWideband (Some (mkMaterial (fun _ => (2000, 0)) None)) [] 1 [mkTank (1 / 1000) (1 / 1000000000) true 0 0] [] None None true in
  exists x, impedance_from_model slab m 1000 = Some x /\ 0 < snd x.
Proof.
  intros slab m. apply (C187_sign slab 2000 (1 / 1000) (1 / 1000000000) [] [] None None true 1000); try lra.
  assert (S : sqrt (1 / 1000 * 2000 * (1 / 1000000000)) < 5 / 100000).
  { rewrite <- (sqrt_square (5 / 100000)) by lra. apply sqrt_lt_1; lra. }
  assert (S0 : 0 < sqrt (1 / 1000 * 2000 * (1 / 1000000000))) by (apply sqrt_lt_R0; lra).
  set (q := sqrt _) in *. pose proof PI_RGT_0 as Pi. pose proof PI_4 as P4. unfold Rdiv at 1. rewrite Rmult_1_l.
  replace 1000 with (/ (1 / 1000)) by field. apply Rinv_lt_contravar; [|nra]. apply Rmult_lt_0_compat; nra.
Qed.

(** * C188: permittivity over frequency *)
Definition above_zero (points : list point) : Prop :=
  forall p f, In p points -> p_frequency p = Some f -> 0 < p_value p -> 0 < f.
(** The points that count. *)
Definition counts (points : list point) (f v : R) : Prop :=
  exists p, In p points /\ p_frequency p = Some f /\ p_value p = v /\ 0 < v.

Lemma usable_spec : forall l f v, In (f, v) (usable l) <-> counts l f v.
Proof.
  unfold counts. induction l as [|p l IH]; intros f v; cbn [usable].
  - split; [intros [] | intros (p & [] & _)].
  - assert (Skip : (exists q, In q l /\ p_frequency q = Some f /\ p_value q = v /\ 0 < v) -> exists q, In q (p :: l) /\ p_frequency q = Some f /\ p_value q = v /\ 0 < v)
      by (intros (q & I & H); exists q; split; [right; exact I | exact H]).
    destruct (p_frequency p) as [g|] eqn:G; [destruct (Rlt_dec 0 (p_value p)) as [V|V]|].
    + cbn [In]. rewrite IH. split.
      * intros [E|H]; [|apply Skip, H]. injection E as <- <-. exists p. repeat split; [left; reflexivity | exact G | exact V].
      * intros (q & [<- |I] & A & B & C); [left; rewrite A in G; injection G as ->; now rewrite B | right; exists q; auto].
    + rewrite IH. split; [apply Skip|]. intros (q & [<- |I] & A & B & C); [lra | exists q; auto].
    + rewrite IH. split; [apply Skip|]. intros (q & [<- |I] & A & B & C); [congruence | exists q; auto].
Qed.
Definition le2 (a b : R * R) : Prop := fst a < fst b \/ fst a = fst b /\ snd a <= snd b.
Lemma pair_le_iff : forall a b, pair_le a b = true <-> le2 a b.
Proof.
  intros a b. unfold pair_le, le2. destruct (Rlt_dec (fst a) (fst b)) as [L|L]; [tauto|].
  destruct (Req_EM_T (fst a) (fst b)) as [E|E]; [|split; [discriminate | intros [H|[H _]]; contradiction]].
  destruct (Rle_dec (snd a) (snd b)) as [M|M]; split; intro H; try reflexivity; try discriminate; [right; auto|]. destruct H as [H|[_ H]]; contradiction.
Qed.
Lemma le2_total : forall a b, le2 a b \/ le2 b a.
Proof. intros a b. unfold le2. destruct (Rtotal_order (fst a) (fst b)) as [H|[H|H]]; [tauto | | tauto]. destruct (Rle_dec (snd a) (snd b)); [tauto|]. right. right. lra. Qed.
Lemma le2_trans : forall a b c, le2 a b -> le2 b c -> le2 a c.
Proof. unfold le2. intros a b c [H|[H H']] [K|[K K']]; try (left; lra). right. lra. Qed.
Lemma le2_antisym : forall a b, le2 a b -> le2 b a -> a = b.
Proof. intros [a a'] [b b']. unfold le2. cbn. intros [H|[H H']] [K|[K K']]; try lra. f_equal; lra. Qed.
Lemma insert_perm : forall p l, Permutation (p :: l) (insert p l).
Proof.
  intros p l. induction l as [|q l IH]; cbn [insert]; [reflexivity|]. destruct (pair_le p q); [reflexivity|].
  transitivity (q :: p :: l); [apply perm_swap | apply perm_skip, IH].
Qed.
Lemma ordered_perm : forall l, Permutation l (ordered l).
Proof. induction l as [|p l IH]; cbn [ordered]; [reflexivity|]. transitivity (p :: ordered l); [apply perm_skip, IH | apply insert_perm]. Qed.
Lemma insert_sorted : forall p l, StronglySorted le2 l -> StronglySorted le2 (insert p l).
Proof.
  intros p l S. induction S as [|q l S IH H]; cbn [insert]; [repeat constructor|]. destruct (pair_le p q) eqn:E.
  - apply pair_le_iff in E. constructor; [constructor; assumption|]. constructor; [exact E|].
    rewrite Forall_forall in *. intros x I. apply le2_trans with q; [exact E | apply H, I].
  - assert (Q : le2 q p) by (destruct (le2_total p q) as [T|T]; [apply pair_le_iff in T; congruence | exact T]).
    constructor; [exact IH|]. rewrite Forall_forall in *. intros x I. apply (Permutation_in _ (Permutation_sym (insert_perm p l))) in I.
    destruct I as [<- |I]; [exact Q | apply H, I].
Qed.
Lemma ordered_sorted : forall l, StronglySorted le2 (ordered l).
Proof. induction l as [|p l IH]; cbn [ordered]; [constructor | apply insert_sorted, IH]. Qed.
Lemma sorted_unique : forall l l', StronglySorted le2 l -> StronglySorted le2 l' -> Permutation l l' -> l = l'.
Proof.
  induction l as [|x l IH]; intros l' S S' P; [apply Permutation_nil in P; now subst|].
  destruct l' as [|y l']; [apply Permutation_sym, Permutation_nil in P; discriminate|].
  apply StronglySorted_inv in S. destruct S as (S & H). apply StronglySorted_inv in S'. destruct S' as (S' & H').
  rewrite Forall_forall in *.
  assert (E : x = y).
  { pose proof (Permutation_in x P (or_introl eq_refl)) as [I|I]; [congruence|].
    pose proof (Permutation_in y (Permutation_sym P) (or_introl eq_refl)) as [J|J]; [congruence|]. apply le2_antisym; auto. }
  subst y. f_equal. apply IH; try assumption. now apply Permutation_cons_inv in P.
Qed.
Lemma last_cons : forall (l : list (R * R)) q p, last (q :: l) p = last l q.
Proof.
  induction l as [|r l IH]; intros q p; [reflexivity|]. change (last (q :: r :: l) p) with (last (r :: l) p). now rewrite (IH r p), (IH r q).
Qed.
Lemma stretch_split : forall f (l : list (R * R)) p, fst p < f -> f < fst (last l p) ->
  exists l1 a b l2, p :: l = (l1 ++ a :: b :: l2)%list /\ fst a < f <= fst b /\ stretch f p l = along a b f.
Proof.
  intros f. induction l as [|q l IH]; intros p A B; [cbn in B; lra|]. cbn [stretch].
  destruct (Rle_dec (fst p) f) as [_|]; [|lra]. destruct (Rle_dec f (fst q)) as [L|L].
  - exists [], p, q, l. repeat split; lra.
  - destruct (IH q ltac:(lra)) as (l1 & a & b & l2 & E & H & S).
    + destruct l as [|r l]; [cbn in *; lra | rewrite last_cons in B; exact B].
    + exists (p :: l1), a, b, l2. rewrite E. repeat split; try apply H. exact S.
Qed.
Lemma last_in : forall (l : list (R * R)) p, In (last l p) (p :: l).
Proof.
  induction l as [|q l IH]; intro p; [left; reflexivity|]. destruct l as [|r l]; [right; left; reflexivity|].
  change (last (q :: r :: l) p) with (last (r :: l) p). destruct (IH p) as [H|H]; [left; exact H | right; right; exact H].
Qed.
Lemma last_greatest : forall (l : list (R * R)) p, StronglySorted le2 (p :: l) -> forall x, In x (p :: l) -> fst x <= fst (last l p).
Proof.
  induction l as [|q l IH]; intros p S x I.
  - destruct I as [<- |[]]. cbn. lra.
  - apply StronglySorted_inv in S. destruct S as (S & H). rewrite Forall_forall in H.
    rewrite last_cons. destruct I as [<- |I]; [|apply (IH q S x I)].
    pose proof (IH q S q (or_introl eq_refl)). destruct (H q (or_introl eq_refl)) as [L|[L _]]; lra.
Qed.

(** Two points between which the frequency lies, and the line through them in the
    plane of the logarithms. *)
Definition on_the_line (fa va fb vb f v : R) : Prop :=
  0 < v /\ (ln v - ln va) * (ln fb - ln fa) = (ln vb - ln va) * (ln f - ln fa).
Lemma along_line : forall fa va fb vb f, 0 < fa -> fa < f -> f <= fb -> 0 < va -> 0 < vb ->
  exists v, along (fa, va) (fb, vb) f = Some v /\ on_the_line fa va fb vb f v.
Proof.
  intros fa va fb vb f A F B Va Vb. unfold along. cbn [fst snd]. destruct (Rlt_dec 0 fa) as [_|]; [|lra].
  destruct (Req_EM_T fa fb) as [|_]; [lra|]. eexists. split; [reflexivity|]. unfold on_the_line, Rpower.
  pose proof (exp_pos (ln (f / fa) / ln (fb / fa) * ln (vb / va))) as E. split; [nra|].
  rewrite ln_mult by assumption. rewrite ln_exp. unfold Rdiv.
  assert (Lf : forall x y, 0 < x -> 0 < y -> ln (x * / y) = ln x - ln y).
  { intros x y X Y. rewrite ln_mult; [|exact X | apply Rinv_0_lt_compat, Y]. rewrite ln_Rinv by exact Y. ring. }
  rewrite !Lf by lra. assert (ln fa < ln fb) by (apply ln_increasing; lra). field. lra.
Qed.

(** The value at a frequency, with points of positive frequency: that of the lowest
    point below all, of the highest above all, and on the line through two neighbours
    in between. *)
Theorem C188_value : forall points f, above_zero points -> (exists g v, counts points g v) ->
  exists v, permittivity_at (Table points) f = Some v
  /\ ((exists g, counts points g v /\ f <= g /\ forall g' v', counts points g' v' -> g <= g')
      \/ (exists g, counts points g v /\ g <= f /\ forall g' v', counts points g' v' -> g' <= g)
      \/ (exists fa va fb vb, counts points fa va /\ counts points fb vb /\ fa < f <= fb /\ on_the_line fa va fb vb f v
            /\ forall g' v', counts points g' v' -> g' <= fa \/ fb <= g')).
Proof.
  intros points f Pos (g0 & v0 & C0). unfold permittivity_at.
  pose proof (ordered_perm (usable points)) as P. pose proof (ordered_sorted (usable points)) as S.
  assert (Cn : forall x, In x (ordered (usable points)) <-> counts points (fst x) (snd x)).
  { intros [a b]. rewrite <- usable_spec. cbn. split; apply Permutation_in; [apply Permutation_sym|]; exact P. }
  destruct (ordered (usable points)) as [|p l] eqn:O; [apply (Cn (g0, v0)) in C0; destruct C0|].
  pose proof (StronglySorted_inv S) as (_ & First). rewrite Forall_forall in First.
  assert (Low : forall g v, counts points g v -> fst p <= g).
  { intros g v C. apply (Cn (g, v)) in C. destruct C as [->|C]; [cbn; lra|]. destruct (First _ C) as [L|[L _]]; cbn in L; lra. }
  destruct (Rle_dec f (fst p)) as [L|L].
  - eexists. split; [reflexivity|]. left. exists (fst p). split; [apply Cn; left; reflexivity|]. split; [exact L | exact Low].
  - destruct (Rle_dec (fst (last l p)) f) as [H|H].
    + eexists. split; [reflexivity|]. right. left. exists (fst (last l p)). split; [apply Cn, last_in|]. split; [exact H|].
      intros g v C. apply (Cn (g, v)) in C. exact (last_greatest l p S (g, v) C).
    + destruct (stretch_split f l p ltac:(lra) ltac:(lra)) as (l1 & [fa va] & [fb vb] & l2 & E & Br & St). cbn [fst] in Br.
      assert (Ca : counts points fa va) by (apply (Cn (fa, va)); rewrite E; apply in_app_iff; right; left; reflexivity).
      assert (Cb : counts points fb vb) by (apply (Cn (fb, vb)); rewrite E; apply in_app_iff; right; right; left; reflexivity).
      assert (Pa : 0 < fa) by (destruct Ca as (q & I & A & B & V); apply (Pos q fa I A); lra).
      destruct (along_line fa va fb vb f Pa) as (v & Av & Ln); try lra; [destruct Ca as (q & _ & _ & _ & V); exact V | destruct Cb as (q & _ & _ & _ & V); exact V|].
      exists v. rewrite St. split; [exact Av|]. right. right. exists fa, va, fb, vb. repeat (split; [assumption|]).
      intros g w C. apply (Cn (g, w)) in C. rewrite E in C, S. clear - C S.
      induction l1 as [|x l1 IH]; cbn [app] in *.
      * apply StronglySorted_inv in S. destruct S as (S & _). destruct C as [C|[C|C]]; [injection C as <- <-; left; lra | injection C as <- <-; right; lra|].
        apply StronglySorted_inv in S. destruct S as (_ & H). rewrite Forall_forall in H. destruct (H _ C) as [L|[L _]]; cbn in L; right; lra.
      * apply StronglySorted_inv in S. destruct S as (S & H). destruct C as [->|C]; [|apply (IH S C)].
        rewrite Forall_forall in H. left. destruct (H (fa, va)) as [L|[L _]]; [apply in_app_iff; right; left; reflexivity | |]; cbn in L; lra.
Qed.
(** Between two neighbours the value lies between theirs. *)
Theorem C188_between : forall fa va fb vb f v, 0 < fa -> fa < f <= fb -> 0 < va -> 0 < vb -> on_the_line fa va fb vb f v ->
  Rmin va vb <= v <= Rmax va vb /\ (f = fb -> v = vb).
Proof.
  intros fa va fb vb f v A (F & B) Va Vb (V & E).
  assert (La : ln fa < ln f) by (apply ln_increasing; lra). assert (Lb : ln f <= ln fb) by (destruct B as [B| ->]; [left; apply ln_increasing; lra | lra]).
  assert (Mono : forall x y, 0 < x -> 0 < y -> ln x <= ln y -> x <= y).
  { intros x y X Y [H|H]; [left; apply ln_lt_inv; assumption | right; apply ln_inv; assumption]. }
  set (t := ln f - ln fa) in *. set (d := ln fb - ln fa) in *. assert (T : 0 < t <= d) by (unfold t, d; lra).
  split.
  - destruct (Rle_dec va vb) as [L|L].
    + assert (Lv : ln va <= ln vb) by (destruct L as [L| ->]; [left; apply ln_increasing; assumption | lra]).
      rewrite Rmin_left, Rmax_right by lra. split; apply Mono; try assumption; nra.
    + assert (Lv : ln vb < ln va) by (apply ln_increasing; lra). rewrite Rmin_right, Rmax_left by lra. split; apply Mono; try assumption; nra.
  - intros ->. unfold t, d in *. apply ln_inv; try assumption. apply Rmult_eq_reg_r with (ln fb - ln fa); [|lra]. lra.
Qed.
(** The order of the points does not matter, once one counts. *)
Theorem C188_order : forall points points' f, Permutation points points' -> (exists g v, counts points g v) ->
  permittivity_at (Table points) f = permittivity_at (Table points') f.
Proof.
  intros points points' f P (g & v & C).
  assert (U : Permutation (usable points) (usable points')).
  { clear - P. induction P; cbn [usable].
    - reflexivity.
    - destruct (p_frequency x); [|exact IHP]. destruct (Rlt_dec 0 (p_value x)); [apply perm_skip|]; exact IHP.
    - destruct (p_frequency x); [destruct (Rlt_dec 0 (p_value x))|]; (destruct (p_frequency y); [destruct (Rlt_dec 0 (p_value y))|]); try reflexivity; apply perm_swap.
    - etransitivity; eassumption. }
  assert (E : ordered (usable points) = ordered (usable points')).
  { apply sorted_unique; try apply ordered_sorted. rewrite <- ordered_perm, U. apply ordered_perm. }
  unfold permittivity_at. rewrite <- E. destruct (ordered (usable points)) eqn:O; [|reflexivity].
  apply usable_spec in C. apply (Permutation_in _ (ordered_perm (usable points))) in C. rewrite O in C. destruct C.
Qed.
(** A single point is its value at every frequency. *)
Theorem C188_single : forall p f, permittivity_at (Single p) f = Some (p_value p).
Proof. reflexivity. Qed.
(** A point at zero frequency, which the tables may hold, leaves no value up to the next. *)
Theorem C188_zero_refuted : permittivity_at (Table [mkPoint (Some 0) 100; mkPoint (Some 1000) 50]) 500 = None.
Proof.
  unfold permittivity_at. cbn [usable p_frequency p_value]. destruct (Rlt_dec 0 100); [|lra]. destruct (Rlt_dec 0 50); [|lra].
  cbn [ordered insert]. unfold pair_le. cbn [fst snd]. destruct (Rlt_dec 0 1000); [|lra]. cbn [last fst].
  destruct (Rle_dec 500 0); [lra|]. destruct (Rle_dec 1000 500); [lra|]. cbn [stretch fst]. destruct (Rle_dec 0 500); [|lra]. destruct (Rle_dec 500 1000); [|lra].
  unfold along. cbn [fst]. destruct (Rlt_dec 0 0); [lra | reflexivity].
Qed.
(** Without a point that counts, the first of the table, whatever its frequency. *)
Theorem C188_none_counts : forall p rest f, (forall g v, ~ counts (p :: rest) g v) -> permittivity_at (Table (p :: rest)) f = Some (p_value p).
Proof.
  intros p rest f N. unfold permittivity_at. destruct (ordered (usable (p :: rest))) as [|[g v] l] eqn:O; [reflexivity|]. exfalso. apply (N g v). apply usable_spec.
  apply (Permutation_in _ (Permutation_sym (ordered_perm _))). rewrite O. left. reflexivity.
Qed.
Example C188_witness : exists v,
  permittivity_at (Table [mkPoint (Some 1000) 50; mkPoint None 7; mkPoint (Some 10) 100]) 100 = Some v /\ 50 <= v <= 100.
Proof.
  set (pts := [mkPoint (Some 1000) 50; mkPoint None 7; mkPoint (Some 10) 100]).
  assert (Ct : forall g v, counts pts g v <-> (g = 1000 /\ v = 50) \/ (g = 10 /\ v = 100)).
  { intros g v. split.
    - intros (p & [<- |[<- |[<- |[]]]] & E & V & _); cbn in E, V; try discriminate; injection E as <-; auto.
    - intros [(-> & ->)|(-> & ->)]; [exists (mkPoint (Some 1000) 50) | exists (mkPoint (Some 10) 100)]; cbn; repeat split; try lra; auto. }
  destruct (C188_value pts 100) as (v & E & H).
  - intros p f I F _. destruct I as [<- |[<- |[<- |[]]]]; cbn in F; try discriminate; injection F as <-; lra.
  - exists 1000, 50. apply Ct. auto.
  - exists v. split; [exact E|]. destruct H as [(g & C & L & M)|[(g & C & L & M)|(fa & va & fb & vb & Ca & Cb & Br & Ln & _)]].
    + apply Ct in C. lra.
    + apply Ct in C. lra.
    + apply Ct in Ca, Cb. destruct Ca as [(-> & ->)|(-> & ->)]; [lra|]. destruct Cb as [(-> & ->)|(-> & ->)]; [|lra].
      destruct (C188_between 10 100 1000 50 100 v ltac:(lra) Br ltac:(lra) ltac:(lra) Ln) as (B & _).
      rewrite Rmin_right, Rmax_left in B by lra. exact B.
Qed.

Print Assumptions C185_least.
Print Assumptions C185_none.
Print Assumptions C185_total.
Print Assumptions C185_limit_refuted.
Print Assumptions C185_ratios.
Print Assumptions C185_order.
Print Assumptions C185_missing.
Print Assumptions C186_impedance.
Print Assumptions C186_wound.
Print Assumptions C186_wideband_unwound_refuted.
Print Assumptions C186_differential_unwound_refuted.
Print Assumptions C186_differential.
Print Assumptions C187_sign.
Print Assumptions C187_of_the_tank_partial.
Print Assumptions C187_fast_refuted.
Print Assumptions C187_ignored_refuted.
Print Assumptions C187_model_refuted.
Print Assumptions C188_value.
Print Assumptions C188_between.
Print Assumptions C188_order.
Print Assumptions C188_single.
Print Assumptions C188_zero_refuted.
Print Assumptions C188_none_counts.
