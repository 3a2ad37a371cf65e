(** Properties of the labels of wire coatings: C147 (labels read back), C148 (labels
    in general). *)
From Coq Require Import List String Ascii Bool NArith ZArith QArith Qround Qabs Decimal DecimalString DecimalN Lia Lqa.
From Verif Require Import Base QAux TextModel TextProofs TextProperties WireLabelModel.
Import ListNotations.
Local Open Scope outcome_scope.
Local Open Scope string_scope.

(** * Searching *)
Definition figure (c : ascii) : bool := match digit c with Some _ => true | None => Ascii.eqb c "." || Ascii.eqb c "-" end.
Fixpoint figures (s : string) : bool := match s with EmptyString => true | String c r => figure c && figures r end.
Definition starts_plain (w : string) : Prop := match w with EmptyString => False | String c _ => figure c = false end.

Lemma find_figures : forall d w t, figures d = true -> starts_plain w ->
  find_first w (d ++ t) = option_map (fun n => String.length d + n)%nat (find_first w t).
Proof.
  induction d as [|c d IH]; intros w t F P.
  - cbn [append String.length]. destruct (find_first w t); reflexivity.
  - cbn [figures] in F. apply andb_true_iff in F. destruct F as (Fc & F). destruct w as [|x w]; [destruct P|]. cbn [starts_plain] in P.
    cbn [append find_first prefix]. destruct (ascii_dec x c) as [->|]; [congruence|].
    rewrite (IH (String x w) t F P). destruct (find_first (String x w) t); reflexivity.
Qed.
Lemma has_figures : forall d w t, figures d = true -> starts_plain w -> has w (d ++ t) = has w t.
Proof. intros d w t F P. unfold has. rewrite find_figures by assumption. destruct (find_first w t); reflexivity. Qed.

Lemma has_contains : forall w s, has w s = true <-> contains w s.
Proof.
  intros w s. unfold has. destruct (find_first w s) as [n|] eqn:E.
  - destruct (find_first_some _ _ _ E) as (u & v & H & _). split; [exists u, v; exact H | reflexivity].
  - split; [discriminate|]. intros (u & v & H). exfalso. exact (find_first_none _ _ E u v H).
Qed.
Lemma has_lacks : forall w s, has w s = false <-> ~ contains w s.
Proof. intros w s. rewrite <- has_contains. destruct (has w s); split; congruence. Qed.

Lemma split_one : forall s d n, d <> "" -> find_first d s = Some n -> find_first d (drop (n + String.length d) s) = None ->
  split s d = Ok [take n s; drop (n + String.length d) s].
Proof.
  intros s d n D F N. unfold split. cbn [split_loop]. rewrite F.
  destruct (find_first_some _ _ _ F) as (u & v & E & _). destruct s as [|c s].
  - destruct u; [destruct d; [congruence | discriminate] | discriminate].
  - cbn [String.length split_loop]. rewrite N. reflexivity.
Qed.
Lemma split_none : forall s d, find_first d s = None -> split s d = Ok [s].
Proof. intros s d F. unfold split. cbn [split_loop]. now rewrite F. Qed.

(** * Figures *)
Definition plain_start (t : string) : Prop := match t with EmptyString => True | String c _ => digit c = None end.
Lemma scan_string : forall u t, plain_start t -> scan (NilEmpty.string_of_uint u ++ t) = (u, t).
Proof.
  induction u; intros t P; cbn [NilEmpty.string_of_uint append scan digit]; try (rewrite IHu by exact P; reflexivity).
  destruct t as [|c t]; [reflexivity|]. cbn [plain_start] in P. cbn [scan]. now rewrite P.
Qed.
Lemma string_figures : forall u, figures (NilEmpty.string_of_uint u) = true.
Proof. induction u; cbn [NilEmpty.string_of_uint figures]; try rewrite IHu; reflexivity. Qed.
Lemma figures_app : forall a b, figures (a ++ b) = (figures a && figures b)%bool.
Proof. induction a as [|c a IH]; intro b; [reflexivity|]. cbn. rewrite IH. now rewrite andb_assoc. Qed.
Lemma show_figures : forall n, figures (show n) = true.
Proof. intro n. apply string_figures. Qed.
Lemma minus_figures : forall q, figures (minus q) = true.
Proof. intro q. unfold minus. destruct (Qlt_bool q 0); reflexivity. Qed.
Lemma fixed_figures : forall q, figures (fixed_0 q) = true /\ figures (fixed_1 q) = true.
Proof.
  intro q. unfold fixed_0, fixed_1. cbv zeta. rewrite !figures_app, minus_figures, !show_figures. split; reflexivity.
Qed.
Lemma to_uint_some : forall n, N.to_uint n <> Nil.
Proof. intros n E. pose proof (DecimalN.Unsigned.of_to n) as H. destruct n; [discriminate E|]. rewrite E in H. discriminate H. Qed.

Lemma number_start : forall u t, u <> Nil ->
  skip_spaces (NilEmpty.string_of_uint u ++ t) = NilEmpty.string_of_uint u ++ t
  /\ sign_of (NilEmpty.string_of_uint u ++ t) = (false, NilEmpty.string_of_uint u ++ t).
Proof. intros u t N. destruct u; [congruence| | | | | | | | | |]; split; reflexivity. Qed.

Lemma stoi_show : forall z, (-2147483648 <= z <= 2147483647)%Z -> stoi (show_z z) = Ok z.
Proof.
  intros z B. unfold stoi, show_z, show.
  assert (T : forall n, scan (NilEmpty.string_of_uint (N.to_uint n)) = (N.to_uint n, "")).
  { intro n. rewrite <- (append_nil_r (NilEmpty.string_of_uint (N.to_uint n))). apply scan_string. exact I. }
  assert (G : ((-2147483648 <=? z) && (z <=? 2147483647))%Z%bool = true) by (apply andb_true_iff; split; apply Z.leb_le; lia).
  destruct (z <? 0)%Z eqn:S.
  - apply Z.ltb_lt in S. 
    set (x := NilEmpty.string_of_uint (N.to_uint (Z.abs_N z))).
    change (sign_of (skip_spaces ("-" ++ x))) with (true, x). cbv iota beta. subst x. rewrite T.
    pose proof (to_uint_some (Z.abs_N z)) as N. destruct (N.to_uint (Z.abs_N z)) eqn:E; [congruence| | | | | | | | | |];
      rewrite <- E, DecimalN.Unsigned.of_to, N2Z.inj_abs_N, Z.abs_neq, Z.opp_involutive, G by lia; reflexivity.
  - apply Z.ltb_ge in S. destruct (number_start (N.to_uint (Z.abs_N z)) "" (to_uint_some _)) as (A & B').
    rewrite append_nil_r in A, B'. rewrite A, B', T.
    pose proof (to_uint_some (Z.abs_N z)) as N. destruct (N.to_uint (Z.abs_N z)) eqn:E; [congruence| | | | | | | | | |];
      rewrite <- E, DecimalN.Unsigned.of_to, N2Z.inj_abs_N, Z.abs_eq, G by lia; reflexivity.
Qed.

Lemma half_even_near : forall q, (0 <= q)%Q -> (Qabs (inject_Z (Z.of_N (half_even q)) - q) <= 1 # 2)%Q.
Proof.
  intros q P. unfold half_even. cbv zeta. pose proof (Qfloor_le q) as A. pose proof (Qlt_floor q) as B.
  assert (F : (0 <= Qfloor q)%Z). { rewrite <- (Qfloor_Z 0). apply Qfloor_resp_le. exact P. }
  rewrite inject_Z_plus in B. change (inject_Z 1) with 1%Q in B.
  set (f := Qfloor q) in *.
  assert (G : forall z, (0 <= z)%Z -> inject_Z (Z.of_N (Z.abs_N z)) = inject_Z z) by (intros z Z0; now rewrite N2Z.inj_abs_N, Z.abs_eq).
  apply Qabs_Qle_condition.
  destruct (Qlt_bool (q - inject_Z f) (1 # 2)) eqn:L; [|destruct (Qlt_bool (1 # 2) (q - inject_Z f)) eqn:M; [|destruct (Z.even f)]];
    rewrite G by lia; rewrite ?inject_Z_plus; change (inject_Z 1) with 1%Q;
    repeat match goal with
    | H : Qlt_bool _ _ = true |- _ => apply Qlt_bool_iff in H
    | H : Qlt_bool _ _ = false |- _ => apply Qlt_bool_false in H
    end; lra.
Qed.
Lemma half_even_tie : forall q, (0 <= q)%Q -> (Qabs (inject_Z (Z.of_N (half_even q)) - q) == 1 # 2)%Q ->
  Z.even (Z.of_N (half_even q)) = true.
Proof.
  intros q P. unfold half_even. cbv zeta. pose proof (Qfloor_le q) as A. pose proof (Qlt_floor q) as B.
  assert (F : (0 <= Qfloor q)%Z). { rewrite <- (Qfloor_Z 0). apply Qfloor_resp_le. exact P. }
  rewrite inject_Z_plus in B. change (inject_Z 1) with 1%Q in B.
  set (f := Qfloor q) in *.
  assert (G : forall z, (0 <= z)%Z -> Z.of_N (Z.abs_N z) = z) by (intros z Z0; now rewrite N2Z.inj_abs_N, Z.abs_eq).
  destruct (Qlt_bool (q - inject_Z f) (1 # 2)) eqn:L; [|destruct (Qlt_bool (1 # 2) (q - inject_Z f)) eqn:M; [|destruct (Z.even f) eqn:E]];
    rewrite G by lia; rewrite ?inject_Z_plus; change (inject_Z 1) with 1%Q; intro T;
    repeat match goal with
    | H : Qlt_bool _ _ = true |- _ => apply Qlt_bool_iff in H
    | H : Qlt_bool _ _ = false |- _ => apply Qlt_bool_false in H
    end.
  - exfalso. rewrite Qabs_neg in T by lra. lra.
  - exfalso. rewrite Qabs_pos in T by lra. lra.
  - exact E.
  - rewrite Z.even_add, E. reflexivity.
Qed.
Lemma half_even_exact : forall q z, (0 <= z)%Z -> (q == inject_Z z)%Q -> half_even q = Z.to_N z.
Proof.
  intros q z Z0 E. assert (P : (0 <= q)%Q) by (rewrite E; change 0%Q with (inject_Z 0); rewrite <- Zle_Qle; exact Z0).
  pose proof (half_even_near q P) as H. apply Qabs_Qle_condition in H.
  assert (Z.of_N (half_even q) = z); [|lia].
  assert (G : forall a b : Z, (inject_Z a - inject_Z b <= 1 # 2)%Q -> (a <= b)%Z).
  { intros a b L. assert (a < b + 1)%Z; [|lia]. rewrite Zlt_Qlt, inject_Z_plus. change (inject_Z 1) with 1%Q. lra. }
  apply Z.le_antisymm; apply G; lra.
Qed.

Lemma stod_whole : forall q, (0 <= q)%Q -> exists v, stod (fixed_0 q) = Ok v /\ (v == inject_Z (Z.of_N (half_even q)))%Q.
Proof.
  intros q P. assert (S : Qlt_bool q 0 = false) by (apply Qlt_bool_false; exact P).
  unfold fixed_0, minus, magnitude. rewrite S. cbn [append]. unfold show.
  set (u := N.to_uint (half_even q)). unfold stod.
  destruct (number_start u "" (to_uint_some _)) as (A & B). rewrite append_nil_r in A, B. rewrite A, B.
  assert (T : scan (NilEmpty.string_of_uint u) = (u, "")).
  { rewrite <- (append_nil_r (NilEmpty.string_of_uint u)) at 1. apply scan_string. exact I. }
  rewrite T. cbv iota beta.
  assert (V : (inject_Z (Z.of_N (N.of_uint u)) + fraction Nil == inject_Z (Z.of_N (half_even q)))%Q).
  { unfold u. rewrite DecimalN.Unsigned.of_to. unfold fraction. cbn [N.of_uint count Nat.pow Pos.of_nat]. change (Z.of_N (Pos.of_uint Nil)) with 0%Z. 
    unfold Qeq. cbn. ring. }
  pose proof (to_uint_some (half_even q)) as N. fold u in N.
  exists (inject_Z (Z.of_N (N.of_uint u)) + fraction Nil)%Q. split; [|exact V]. destruct u; [congruence| | | | | | | | | |]; reflexivity.
Qed.

Lemma one_digit : forall m, (m < 10)%N -> count (N.to_uint m) = 1%nat.
Proof.
  intros m L. destruct m as [|p]; [reflexivity|].
  assert (H : In p [1; 2; 3; 4; 5; 6; 7; 8; 9]%positive).
  { destruct p as [[[p|p|]|[p|p|]|]|[[p|p|]|[p|p|]|]|]; cbn; try tauto; lia. }
  cbn in H. repeat (destruct H as [<-|H]; [reflexivity|]). destruct H.
Qed.

Lemma stod_tenths : forall q, (0 <= q)%Q ->
  exists v, stod (fixed_1 q) = Ok v /\ (10 * v == inject_Z (Z.of_N (half_even (10 * q))))%Q.
Proof.
  intros q P. assert (S : Qlt_bool q 0 = false) by (apply Qlt_bool_false; exact P).
  unfold fixed_1, minus, magnitude. rewrite S. cbn [append]. cbv zeta. set (n := half_even (10 * q)). unfold show.
  set (u := N.to_uint (n / 10)). set (d := N.to_uint (n mod 10)). unfold stod.
  destruct (number_start u ("." ++ NilEmpty.string_of_uint d) (to_uint_some _)) as (A & B). cbn [append] in A, B. rewrite A, B.
  rewrite (scan_string u (String "." (NilEmpty.string_of_uint d))) by reflexivity. cbv iota beta.
  assert (T : scan (NilEmpty.string_of_uint d) = (d, "")).
  { rewrite <- (append_nil_r (NilEmpty.string_of_uint d)) at 1. apply scan_string. exact I. }
  rewrite T. cbn [fst].
  pose proof (to_uint_some (n / 10)) as N. fold u in N.
  exists (inject_Z (Z.of_N (N.of_uint u)) + fraction d)%Q. split; [destruct u; [congruence| | | | | | | | | |]; reflexivity|].
  unfold fraction, d. rewrite one_digit by (apply N.mod_lt; discriminate). unfold u. rewrite !DecimalN.Unsigned.of_to.
  change (Pos.of_nat (10 ^ 1)) with 10%positive.
  assert (E : (Z.of_N n = 10 * Z.of_N (n / 10) + Z.of_N (n mod 10))%Z).
  { pose proof (N.div_mod n 10 ltac:(discriminate)). lia. }
  rewrite E, inject_Z_plus, inject_Z_mult. change (inject_Z 10) with 10%Q.
  setoid_replace (Z.of_N (n mod 10) # 10)%Q with (inject_Z (Z.of_N (n mod 10)) / 10)%Q by (unfold Qeq; cbn; ring). field.
Qed.

(** * Vocabulary *)
(** the same figure, or none on both sides *)
Definition same (a b : option Q) : Prop :=
  match a, b with
  | Some x, Some y => (x == y)%Q
  | None, None => True
  | _, _ => False
  end.
(** the figure of a label: the nearest hundred of volts above one kilovolt, the
    nearest volt up to it, the even one of two as near *)
Definition rounded (v v' : option Q) : Prop :=
  match v, v' with
  | Some x, Some y => exists k, (y == inject_Z k * (if Qlt_bool 1000 x then 100 else 1))%Q
                        /\ (Qabs (y - x) <= (if Qlt_bool 1000 x then 50 else 1 # 2))%Q
                        /\ ((Qabs (y - x) == (if Qlt_bool 1000 x then 50 else 1 # 2))%Q -> Z.even k = true)
  | None, None => True
  | _, _ => False
  end.
(** the label a coating is given *)
Definition label_of (w : labelled) (label : string) : Prop := encode_label w = Ok label.

Ltac plain := first [reflexivity | exact I].
Ltac words d F := unfold has; cbn [append find_first prefix]; cbn;
  repeat (rewrite (find_figures d _ _ F ltac:(reflexivity)); cbn).

Lemma kilovolts : forall d v, figures d = true -> stod d = Ok v -> forall pre s,
  find_first ", BV " (pre ++ ", BV " ++ d ++ " kV") = Some (String.length pre) ->
  read_voltage (pre ++ ", BV " ++ d ++ " kV") s = Ok (with_breakdown (v * 1000) s).
Proof.
  intros d v F V pre s H. unfold read_voltage, has. rewrite H.
  assert (D : drop (String.length pre + String.length ", BV ") (pre ++ ", BV " ++ d ++ " kV") = d ++ " kV").
  { rewrite <- length_append, <- append_assoc. apply drop_length. }
  unfold piece at 1. rewrite (split_one _ ", BV " (String.length pre)); [|discriminate|exact H|].
  2:{ rewrite D, find_figures by (exact F || reflexivity). reflexivity. }
  cbn [bind nth_error]. rewrite D.
  assert (K : find_first " kV" (d ++ " kV") = Some (String.length d)).
  { rewrite find_figures by (exact F || reflexivity). cbn. now rewrite Nat.add_0_r. }
  rewrite K. unfold piece. rewrite (split_one _ " kV" (String.length d)); [|discriminate|exact K|].
  2:{ rewrite <- length_append. rewrite <- (append_nil_r (d ++ " kV")) at 2. rewrite drop_length. reflexivity. }
  cbn [bind nth_error]. rewrite take_length, V. cbn [bind].
  rewrite find_figures by (exact F || reflexivity). reflexivity.
Qed.
Lemma volts : forall d v, figures d = true -> stod d = Ok v -> forall pre s,
  find_first ", BV " (pre ++ ", BV " ++ d ++ " V") = Some (String.length pre) ->
  read_voltage (pre ++ ", BV " ++ d ++ " V") s = Ok (with_breakdown v s).
Proof.
  intros d v F V pre s H. unfold read_voltage, has. rewrite H.
  assert (D : drop (String.length pre + String.length ", BV ") (pre ++ ", BV " ++ d ++ " V") = d ++ " V").
  { rewrite <- length_append, <- append_assoc. apply drop_length. }
  unfold piece at 1. rewrite (split_one _ ", BV " (String.length pre)); [|discriminate|exact H|].
  2:{ rewrite D, find_figures by (exact F || reflexivity). reflexivity. }
  cbn [bind nth_error]. rewrite D.
  assert (K : find_first " V" (d ++ " V") = Some (String.length d)).
  { rewrite find_figures by (exact F || reflexivity). cbn. now rewrite Nat.add_0_r. }
  assert (KV : find_first " kV" (d ++ " V") = None) by (rewrite find_figures by (exact F || reflexivity); reflexivity).
  rewrite KV. cbn [bind]. rewrite K. unfold piece. rewrite (split_one _ " V" (String.length d)); [|discriminate|exact K|].
  2:{ rewrite <- length_append. rewrite <- (append_nil_r (d ++ " V")) at 2. rewrite drop_length. reflexivity. }
  cbn [bind nth_error]. rewrite take_length, V. reflexivity.
Qed.

Definition rating (t : option Q) : Prop := match t with None => True | Some t => (t == 155)%Q \/ (t == 180)%Q end.
Definition not_negative (v : option Q) : Prop := match v with None => True | Some v => (0 <= v)%Q end.

Lemma fixed_whole : forall q z, (0 <= z)%Z -> (q == inject_Z z)%Q -> fixed_0 q = show (Z.to_N z).
Proof.
  intros q z Z0 E. assert (P : (0 <= q)%Q) by (rewrite E; change 0%Q with (inject_Z 0); rewrite <- Zle_Qle; exact Z0).
  assert (S : Qlt_bool q 0 = false) by (apply Qlt_bool_false; exact P).
  unfold fixed_0, minus, magnitude. rewrite S. cbn [append]. now rewrite (half_even_exact q z Z0 E).
Qed.

(** What [decode_label] makes of an insulated wire's label, by its parts. *)
Definition head_of (n : Z) (t : option Z) : string :=
  (if (n =? 1)%Z then "SIW" else if (n =? 2)%Z then "DIW" else "TIW")
  ++ match t with Some t => ", TR " ++ show (Z.to_N t) | None => "" end.
Lemma decode_insulated : forall n t tail s', (n = 1 \/ n = 2 \/ n = 3)%Z -> (t = None \/ t = Some 155 \/ t = Some 180)%Z ->
  (forall w, In w ["Bare"; "Unserved"; "SIW"; "DIW"; "TIW"; "TR 155"; "TR 180"; "Enamel"; "Single served"; "Double served"] ->
     has w (head_of n t ++ tail) = has w (head_of n t)) ->
  (forall s, read_voltage (head_of n t ++ tail) s = Ok (s' s)) ->
  decode_label (head_of n t ++ tail)
  = Ok (let s := s' (mkCoating (Some Insulated) (Some n) None (option_map inject_Z t) None, true) in
        if snd s then Some (fst s) else None).
Proof.
  intros n t tail s' N T H V. unfold decode_label, read_grade, if_has.
  rewrite V. cbn [bind].
  rewrite (H "Bare"), (H "Unserved"), (H "SIW"), (H "DIW"), (H "TIW"), (H "TR 155"), (H "TR 180"), (H "Enamel"),
    (H "Single served"), (H "Double served") by (cbn; tauto).
  destruct N as [->|[->| ->]], T as [->|[->| ->]]; reflexivity.
Qed.

Lemma no_word : forall n t d unit, (n = 1 \/ n = 2 \/ n = 3)%Z -> (t = None \/ t = Some 155 \/ t = Some 180)%Z ->
  figures d = true -> unit = " kV" \/ unit = " V" ->
  (forall w, In w ["Bare"; "Unserved"; "SIW"; "DIW"; "TIW"; "TR 155"; "TR 180"; "Enamel"; "Single served"; "Double served"] ->
     has w (head_of n t ++ ", BV " ++ d ++ unit) = has w (head_of n t))
  /\ find_first ", BV " (head_of n t ++ ", BV " ++ d ++ unit) = Some (String.length (head_of n t)).
Proof.
  intros n t d unit N T F U. split.
  - intros w W. unfold has.
    destruct N as [->|[->| ->]], T as [->|[->| ->]], U as [->| ->]; cbn in W;
      repeat (destruct W as [<-|W]; [cbn; try reflexivity; rewrite find_figures by (exact F || reflexivity); reflexivity|]); destruct W.
  - destruct N as [->|[->| ->]], T as [->|[->| ->]]; cbn; destruct (d ++ unit); reflexivity.
Qed.

(** C147.  The label of an insulated wire of one to three layers, rated 155, 180 or
    not at all, is read back as the same coating, with its breakdown voltage to the
    nearest volt, or to the nearest hundred of volts above one kilovolt. *)
Theorem C147_insulated : forall litz nema n g t v, (1 <= n <= 3)%Z -> rating t -> not_negative v ->
  exists label t' v', label_of (mkLabelled (Some (mkCoating (Some Insulated) (Some n) g t v)) litz nema) label
    /\ decode_label label = Ok (Some (mkCoating (Some Insulated) (Some n) None t' v'))
    /\ same t t' /\ rounded v v'.
Proof.
  intros litz nema n g t v N T V. assert (N' : (n = 1 \/ n = 2 \/ n = 3)%Z) by lia.
  assert (H : exists z, (z = None \/ z = Some 155 \/ z = Some 180)%Z /\ same t (option_map inject_Z z)
     /\ (match t with Some t => ", TR " ++ fixed_0 t | None => "" end) = match z with Some z => ", TR " ++ show (Z.to_N z) | None => "" end).
  { destruct t as [t|]; [|exists None; cbn; auto]. destruct T as [T|T].
    - exists (Some 155%Z). split; [auto|]. split; [exact T|]. now rewrite (fixed_whole t 155 ltac:(lia) T).
    - exists (Some 180%Z). split; [auto|]. split; [exact T|]. now rewrite (fixed_whole t 180 ltac:(lia) T). }
  destruct H as (z & Z3 & St & Et).
  assert (L : forall tail, tail = match v with Some v => voltage_text v | None => "" end ->
    label_of (mkLabelled (Some (mkCoating (Some Insulated) (Some n) g t v)) litz nema) (head_of n z ++ tail)).
  { intros tail ->. unfold label_of, encode_label. cbn [l_coating c_type c_layers c_temperature c_breakdown]. rewrite Et. f_equal.
    unfold head_of. rewrite append_assoc. destruct N' as [->|[->| ->]]; reflexivity. }
  destruct v as [v|].
  - cbn [not_negative] in V. unfold voltage_text in L.
    destruct (Qlt_bool 1000 v) eqn:K.
    + destruct (stod_tenths (v / 1000)) as (x & X & Ex); [apply Qle_shift_div_l; [reflexivity | rewrite Qmult_0_l; exact V]|].
      destruct (fixed_figures (v / 1000)) as (_ & F).
      destruct (no_word n z (fixed_1 (v / 1000)) " kV" N' Z3 F (or_introl eq_refl)) as (W & B).
      eexists _, (option_map inject_Z z), (Some (x * 1000)%Q). split; [apply L; reflexivity|]. split; [|split; [exact St|]].
      * rewrite (decode_insulated n z _ (with_breakdown (x * 1000)) N' Z3 W); [reflexivity|].
        intro s. apply kilovolts; assumption.
      * cbn [rounded]. rewrite K. exists (Z.of_N (half_even (10 * (v / 1000)))). rewrite <- Ex. split; [ring|].
        pose proof (half_even_near (10 * (v / 1000))) as Ne. rewrite <- Ex in Ne.
        apply Qabs_Qle_condition in Ne; [|apply Qmult_le_0_compat; [discriminate | apply Qle_shift_div_l; [reflexivity | rewrite Qmult_0_l; exact V]]].
        setoid_replace (10 * (v / 1000))%Q with (v / 100)%Q in Ne by field.
        assert (E : (v == 100 * (v / 100))%Q) by field.
        split; [apply Qabs_Qle_condition; set (u := (v / 100)%Q) in *; lra|].
        intro Ti. apply half_even_tie; [apply Qmult_le_0_compat; [discriminate | apply Qle_shift_div_l; [reflexivity | rewrite Qmult_0_l; exact V]]|].
        rewrite <- Ex. setoid_replace (10 * x - 10 * (v / 1000))%Q with ((x * 1000 - v) * (1 # 100))%Q by field.
        rewrite Qabs_Qmult, Ti. reflexivity.
    + destruct (stod_whole v V) as (x & X & Ex). destruct (fixed_figures v) as (F & _).
      destruct (no_word n z (fixed_0 v) " V" N' Z3 F (or_intror eq_refl)) as (W & B).
      eexists _, (option_map inject_Z z), (Some x). split; [apply L; reflexivity|]. split; [|split; [exact St|]].
      * rewrite (decode_insulated n z _ (with_breakdown x) N' Z3 W); [reflexivity|]. intro s. apply volts; assumption.
      * cbn [rounded]. rewrite K. exists (Z.of_N (half_even v)). rewrite Ex. split; [ring|].
        split; [apply (half_even_near v V) | apply (half_even_tie v V)].
  - eexists _, (option_map inject_Z z), None. split; [apply L; reflexivity|]. split; [|split; [exact St | exact I]].
    rewrite append_nil_r. destruct N' as [->|[->| ->]], Z3 as [->|[->| ->]]; reflexivity.
Qed.

(** C147.  Figures the label can write are read back exactly. *)
Theorem C147_exact : forall v v' k, rounded (Some v) (Some v') ->
  (v == inject_Z k * (if Qlt_bool 1000 v then 100 else 1))%Q -> (v' == v)%Q.
Proof.
  intros v v' k (j & E & N & _) H. apply Qabs_Qle_condition in N.
  assert (G : forall a b : Z, (inject_Z a - inject_Z b <= 1 # 2)%Q -> (a <= b)%Z).
  { intros a b L. assert (a < b + 1)%Z; [|lia]. rewrite Zlt_Qlt, inject_Z_plus. change (inject_Z 1) with 1%Q. lra. }
  assert (j = k); [|subst j; lra]. destruct (Qlt_bool 1000 v); apply Z.le_antisymm; apply G; lra.
Qed.

(** C147.  The label of an enamelled wire is read back as the same grade, whatever
    the standard and the grade, up to the range of [int]. *)
Theorem C147_enamelled : forall litz nema n g t v, (-2147483648 <= g <= 2147483647)%Z ->
  exists label, label_of (mkLabelled (Some (mkCoating (Some Enamelled) n (Some g) t v)) litz nema) label
    /\ decode_label label = Ok (Some (mkCoating (Some Enamelled) None (Some g) None None)).
Proof.
  intros litz nema n g t v B. eexists. split; [reflexivity|]. cbn [c_grade l_nema].
  destruct (Z.eqb_spec g 1) as [->|G1]; [destruct nema as [[|]|]; reflexivity|].
  destruct (Z.eqb_spec g 2) as [->|G2]; [destruct nema as [[|]|]; reflexivity|].
  destruct (Z.eqb_spec g 3) as [->|G3]; [destruct nema as [[|]|]; reflexivity|].
  pose proof (stoi_show g B) as R.
  assert (F : figures (show_z g) = true).
  { unfold show_z. destruct (g <? 0)%Z; [|apply show_figures]. rewrite figures_app, show_figures. reflexivity. }
  set (d := show_z g) in *. clearbody d.
  assert (W : forall w, In w ["Bare"; "Unserved"; "SIW"; "DIW"; "TIW"; "TR 155"; "TR 180"; ", BV "; "Enamel"; "grade 1"; "single build";
                "grade 2"; "heavy build"; "grade 3"; "triple build"; "Single served"; "Double served"] ->
              has w ("Enamel" ++ " FIW" ++ d) = has w "Enamel FIW").
  { intros w W. unfold has. rewrite <- (append_nil_r d). cbn in W.
    repeat (destruct W as [<-|W]; [cbn; try reflexivity; rewrite find_figures by (exact F || reflexivity); reflexivity|]). destruct W. }
  assert (K : find_first "FIW" ("Enamel" ++ " FIW" ++ d) = Some 7%nat) by (cbn; destruct d; reflexivity).
  assert (P : piece ("Enamel" ++ " FIW" ++ d) "FIW" 1 = Ok d).
  { unfold piece. rewrite (split_one _ "FIW" 7 ltac:(discriminate) K); [reflexivity|].
    cbn [drop append String.length Nat.add]. rewrite <- (append_nil_r d). rewrite find_figures by (exact F || reflexivity). reflexivity. }
  unfold decode_label, read_voltage, read_grade, if_has. rewrite P.
  rewrite (W "Bare"), (W "Unserved"), (W "SIW"), (W "DIW"), (W "TIW"), (W "TR 155"), (W "TR 180"), (W ", BV "), (W "Enamel"),
    (W "grade 1"), (W "single build"), (W "grade 2"), (W "heavy build"), (W "grade 3"), (W "triple build"),
    (W "Single served"), (W "Double served") by (cbn; tauto).
  cbn [has find_first prefix bind]. rewrite R. reflexivity.
Qed.

(** C147.  So are served litz of one or two layers and bare wires. *)
Theorem C147_served_and_bare : forall litz nema n g t v,
  ((n = 1 \/ n = 2)%Z -> exists label, label_of (mkLabelled (Some (mkCoating (Some Served) (Some n) g t v)) litz nema) label
    /\ decode_label label = Ok (Some (mkCoating (Some Served) (Some n) None None None)))
  /\ (forall n, exists label, label_of (mkLabelled (Some (mkCoating (Some Bare) n g t v)) litz nema) label
    /\ decode_label label = Ok (Some (mkCoating (Some Bare) None None None None))).
Proof.
  intros litz nema n g t v. split.
  - intros [->| ->]; eexists; split; reflexivity.
  - intro m. eexists. split; [reflexivity|]. destruct litz; reflexivity.
Qed.

(** C147.  What has no label is refused. *)
Theorem C147_refused : forall litz nema c,
  (c_type c = None \/ c_type c = Some Extruded \/ c_type c = Some Taped
   \/ (c_type c = Some Enamelled /\ c_grade c = None)
   \/ ((c_type c = Some Insulated \/ c_type c = Some Served) /\ c_layers c = None))
  <-> exists e, encode_label (mkLabelled (Some c) litz nema) = Throw e.
Proof.
  intros litz nema c. unfold encode_label. cbn [l_coating]. split.
  - intros [H|[H|[H|[(H & G)|([H|H] & G)]]]]; rewrite H; rewrite ?G; eexists; reflexivity.
  - destruct (c_type c) as [[]|], (c_grade c), (c_layers c); intros (e & H); try discriminate; tauto.
Qed.

(** C147, refuted otherwise.  A wire without coating is read back as one with a bare
    coating; four layers are read back as no coating at all; a temperature rating
    other than 155 and 180 is lost, and 1553 read as 155; a label written, read and
    written again may change. *)
Theorem C147_refuted : forall litz nema g,
  (exists label, label_of (mkLabelled None litz nema) label
     /\ decode_label label = Ok (Some (mkCoating (Some Bare) None None None None)))
  /\ (forall n, (n < 1 \/ 3 < n)%Z -> exists label,
        label_of (mkLabelled (Some (mkCoating (Some Insulated) (Some n) g None None)) litz nema) label /\ decode_label label = Ok None)
  /\ (forall n, (n < 1 \/ 2 < n)%Z -> exists label,
        label_of (mkLabelled (Some (mkCoating (Some Served) (Some n) g None None)) litz nema) label /\ decode_label label = Ok None)
  /\ (exists label, label_of (mkLabelled (Some (mkCoating (Some Insulated) (Some 3%Z) g (Some 130%Q) None)) litz nema) label
        /\ decode_label label = Ok (Some (mkCoating (Some Insulated) (Some 3%Z) None None None)))
  /\ (exists label, label_of (mkLabelled (Some (mkCoating (Some Insulated) (Some 3%Z) g (Some 1553%Q) None)) litz nema) label
        /\ decode_label label = Ok (Some (mkCoating (Some Insulated) (Some 3%Z) None (Some 155%Q) None)))
  /\ (exists label c label', label_of (mkLabelled (Some (mkCoating (Some Insulated) (Some 3%Z) g None (Some (10004 # 10)))) litz nema) label
        /\ decode_label label = Ok (Some c) /\ label_of (mkLabelled (Some c) litz nema) label' /\ label' <> label).
Proof.
  intros litz nema g. split; [eexists; split; reflexivity|]. split.
  { intros n H. eexists. split; [reflexivity|]. cbn [c_layers c_temperature c_breakdown].
    destruct (Z.eqb_spec n 1); [lia|]. destruct (Z.eqb_spec n 2); [lia|]. destruct (Z.eqb_spec n 3); [lia|]. reflexivity. }
  split.
  { intros n H. eexists. split; [reflexivity|]. cbn [c_layers].
    destruct (Z.eqb_spec n 1); [lia|]. destruct (Z.eqb_spec n 2); [lia|]. reflexivity. }
  split; [eexists; split; reflexivity|]. split; [eexists; split; reflexivity|].
  eexists _, _, _. repeat split; try reflexivity. discriminate.
Qed.

(** * C148 *)
(** the words by which labels are understood *)
Definition plain_words : list string :=
  ["Bare"; "Unserved"; "SIW"; "DIW"; "TIW"; "TR 155"; "TR 180"; "Single served"; "Double served"].
Lemma tag_kept : forall w label f s, (forall s, snd (f s) = true) -> snd (if_has w label f s) = (has w label || snd s)%bool.
Proof. intros w label f s H. unfold if_has. destruct (has w label); [apply H | reflexivity]. Qed.

(** C148.  A label that speaks of neither enamel nor voltage is always read; it
    gives a coating exactly when it contains one of the words. *)
Theorem C148_plain : forall label, ~ contains "Enamel" label -> ~ contains ", BV " label ->
  exists r, decode_label label = Ok r /\ (r <> None <-> exists w, In w plain_words /\ contains w label).
Proof.
  intros label E B. apply has_lacks in E, B. unfold decode_label, read_voltage, read_grade. rewrite E, B. cbn [bind].
  eexists. split; [reflexivity|].
  match goal with |- (if snd ?s then _ else _) <> None <-> _ => set (c := s) end.
  assert (S : snd c = (has "Bare" label || has "Unserved" label || has "SIW" label || has "DIW" label || has "TIW" label
     || has "TR 155" label || has "TR 180" label || has "Single served" label || has "Double served" label)%bool).
  { unfold c. rewrite !tag_kept by (intros; reflexivity). destruct (has "Bare" label || has "Unserved" label)%bool; cbn [snd];
      destruct (has "SIW" label), (has "DIW" label), (has "TIW" label), (has "TR 155" label), (has "TR 180" label),
        (has "Single served" label), (has "Double served" label); reflexivity. }
  destruct (snd c) eqn:C.
  - split; [intros _|discriminate]. symmetry in S. rewrite !orb_true_iff, !has_contains in S.
    unfold plain_words. repeat (destruct S as [S|S]; [|eexists; split; [|exact S]; cbn; tauto]). eexists. split; [|exact S]. cbn. tauto.
  - split; [congruence|]. intros (w & W & H). exfalso. apply has_contains in H.
    symmetry in S. rewrite !orb_false_iff in S. cbn in W.
    repeat (destruct W as [<-|W]; [intuition congruence|]). destruct W.
Qed.

(** C148.  One that speaks of enamel but of no grade is read past the end of the
    pieces it was split into. *)
Theorem C148_enamel_refuted : forall label, ~ contains ", BV " label -> contains "Enamel" label ->
  (forall w, In w ["grade 1"; "single build"; "grade 2"; "heavy build"; "grade 3"; "triple build"; "FIW"] -> ~ contains w label) ->
  exists e, decode_label label = UB e.
Proof.
  intros label B E H. apply has_lacks in B. apply has_contains in E.
  assert (G : forall w, In w ["grade 1"; "single build"; "grade 2"; "heavy build"; "grade 3"; "triple build"; "FIW"] -> has w label = false)
    by (intros w W; apply has_lacks, H, W).
  unfold decode_label, read_voltage, read_grade. rewrite B, E. cbn [bind].
  rewrite (G "grade 1"), (G "single build"), (G "grade 2"), (G "heavy build"), (G "grade 3"), (G "triple build") by (cbn; tauto).
  cbn [orb]. assert (F : find_first "FIW" label = None).
  { pose proof (G "FIW" ltac:(cbn; tauto)) as X. unfold has in X. destruct (find_first "FIW" label); [discriminate | reflexivity]. }
  unfold piece. rewrite (split_none _ _ F). cbn [bind nth_error]. eexists. reflexivity.
Qed.

Example C147_witness :
  encode_label (mkLabelled (Some (mkCoating (Some Insulated) (Some 3%Z) None (Some 155%Q) (Some 5400%Q))) false None)
    = Ok "TIW, TR 155, BV 5.4 kV"
  /\ encode_label (mkLabelled (Some (mkCoating (Some Enamelled) None (Some 6%Z) None None)) false None) = Ok "Enamel FIW6"
  /\ encode_label (mkLabelled (Some (mkCoating (Some Enamelled) None (Some 2%Z) None None)) false (Some true)) = Ok "Enamel heavy build"
  /\ rounded (Some 5430%Q) (Some 5400%Q) /\ rating (Some 155%Q).
Proof. repeat split; try reflexivity; [exists 54%Z; split; [reflexivity | split; [discriminate | reflexivity]] | left; reflexivity]. Qed.
Example C148_witness : ~ contains "Enamel" "Copper" /\ contains "Enamel" "Enamel, thick"
  /\ decode_label "Copper" = Ok None /\ decode_label "Enamel, thick" = UB "index beyond the pieces".
Proof.
  split; [apply has_lacks; reflexivity|]. split; [apply has_contains; reflexivity|]. split; reflexivity.
Qed.

(** C147.  A litz wire without serving is labelled as unserved, any other wire
    without a coating as bare. *)
Theorem C147_unserved : forall litz nema n g t v label,
  label_of (mkLabelled (Some (mkCoating (Some Bare) n g t v)) litz nema) label <-> label = if litz then "Unserved" else "Bare".
Proof.
  intros litz nema n g t v label. unfold label_of, encode_label. cbn [l_coating c_type l_litz]. split.
  - intro H. injection H as <-. reflexivity.
  - intros ->. reflexivity.
Qed.

(** C148.  A label that names an insulation and an enamel of grade one is read as
    enamelled, and keeps the layers of the last insulation it names. *)
Theorem C148_both : forall label, contains "Enamel" label -> contains "grade 1" label ->
  (forall w, In w [", BV "; "TR 155"; "TR 180"; "Single served"; "Double served"] -> ~ contains w label) ->
  forall n, (n = 3%Z /\ contains "TIW" label)
    \/ (n = 2%Z /\ contains "DIW" label /\ ~ contains "TIW" label)
    \/ (n = 1%Z /\ contains "SIW" label /\ ~ contains "DIW" label /\ ~ contains "TIW" label) ->
  decode_label label = Ok (Some (mkCoating (Some Enamelled) (Some n) (Some 1%Z) None None)).
Proof.
  intros label E G H n N.
  assert (W : forall w, In w [", BV "; "TR 155"; "TR 180"; "Single served"; "Double served"] -> has w label = false)
    by (intros w I; apply has_lacks, H, I).
  apply has_contains in E, G. unfold decode_label, read_voltage, read_grade, if_has.
  rewrite (W ", BV "), (W "TR 155"), (W "TR 180"), (W "Single served"), (W "Double served"), E, G by (cbn; tauto).
  destruct (has "Bare" label || has "Unserved" label)%bool;
  destruct N as [(-> & T)|[(-> & D & T)|(-> & S & D & T)]];
    repeat match goal with
    | H : contains _ _ |- _ => apply has_contains in H; rewrite H
    | H : ~ contains _ _ |- _ => apply has_lacks in H; rewrite H
    end; destruct (has "SIW" label); try destruct (has "DIW" label); reflexivity.
Qed.
Example C148_both_witness : decode_label "TIW, Enamel grade 1" = Ok (Some (mkCoating (Some Enamelled) (Some 3%Z) (Some 1%Z) None None)).
Proof. reflexivity. Qed.

Print Assumptions C147_insulated.
Print Assumptions C147_exact.
Print Assumptions C147_enamelled.
Print Assumptions C147_refuted.
Print Assumptions C148_plain.
Print Assumptions C148_enamel_refuted.
Print Assumptions C147_unserved.
Print Assumptions C148_both.
