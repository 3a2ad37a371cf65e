(** * C152: the modifiers of a shape family *)
From Coq Require Import Reals List String Ascii Bool Lra Lia.
From Verif Require Import Base SizingModel CoreLossModel CoreLossProofs PermeabilityModel PermeabilityProperties.
Import ListNotations.
Local Open Scope R_scope.

(** ** Vocabulary *)

Definition characters := list_ascii_of_string.
Definition slashless (s : string) : Prop := ~ In "/"%char (characters s).
Definition space (c : ascii) : Prop := c = " "%char \/ c = "009"%char.
(** What is left of a text without the blanks around it. *)
Definition trimmed (text core : string) : Prop :=
  exists left right, text = (left ++ core ++ right)%string /\ Forall space (characters left) /\ Forall space (characters right) /\
    (forall c r, characters core = c :: r -> ~ space c) /\
    (forall c r, characters core = (r ++ [c])%list -> ~ space c) /\
    (core = EmptyString -> right = EmptyString).
(** The families a key stands for. *)
Definition stands_for (words : list string) (family : string) : Prop :=
  exists w core, In w words /\ trimmed w core /\ capitals core = family.

(** ** Text *)

Lemma app_assoc_s : forall a b c : string, ((a ++ b) ++ c = a ++ (b ++ c))%string.
Proof. induction a as [|x a IH]; intros b c; simpl; [reflexivity|]. rewrite IH. reflexivity. Qed.
Lemma app_nil_s : forall a : string, (a ++ "" = a)%string.
Proof. induction a as [|x a IH]; simpl; [reflexivity|]. rewrite IH. reflexivity. Qed.
Lemma characters_app : forall a b, characters (a ++ b)%string = (characters a ++ characters b)%list.
Proof. induction a as [|x a IH]; intros b; simpl; [reflexivity|]. unfold characters in *. simpl. rewrite IH. reflexivity. Qed.

Lemma parts_word : forall w r current, slashless w -> parts (w ++ r) current = parts r (current ++ w).
Proof.
  induction w as [|x w IH]; intros r current H; simpl.
  - rewrite app_nil_s. reflexivity.
  - destruct (Ascii.eqb x "/") eqn:E.
    + apply Ascii.eqb_eq in E. subst x. exfalso. apply H. left. reflexivity.
    + rewrite IH by (intros K; apply H; right; exact K). rewrite app_assoc_s. reflexivity.
Qed.

Lemma parts_concat : forall l w current, slashless w -> Forall slashless l ->
  parts (String.concat "/" (w :: l)) current = (current ++ w)%string :: l.
Proof.
  induction l as [|v l IH]; intros w current W F.
  - cbn [String.concat]. rewrite <- (app_nil_s w) at 1. rewrite parts_word by exact W. reflexivity.
  - change (String.concat "/" (w :: v :: l)) with (w ++ "/" ++ String.concat "/" (v :: l))%string.
    rewrite parts_word by exact W. inversion F as [|? ? V F']; subst. cbn [append parts]. simpl (Ascii.eqb "/" "/").
    cbn iota. rewrite IH by assumption. reflexivity.
Qed.

Lemma blank_space : forall c, blank c = true <-> space c.
Proof.
  intros c. unfold blank, space. rewrite orb_true_iff, Ascii.eqb_eq, Nat.eqb_eq. split; intros [H|H]; auto; right.
  - rewrite <- (ascii_nat_embedding c), H. reflexivity.
  - subst c. reflexivity.
Qed.

Lemma strip_left_spaces : forall a b, Forall space (characters a) -> strip_left (a ++ b) = strip_left b.
Proof.
  induction a as [|x a IH]; intros b H; simpl; [reflexivity|]. inversion H as [|? ? X F]; subst.
  apply blank_space in X. rewrite X. apply IH. exact F.
Qed.
Lemma strip_left_word : forall a, (forall c r, characters a = c :: r -> ~ space c) -> strip_left a = a.
Proof.
  intros [|x a] H; [reflexivity|]. simpl. destruct (blank x) eqn:E; [|reflexivity].
  apply blank_space in E. exfalso. exact (H x (characters a) eq_refl E).
Qed.
Lemma strip_right_spaces : forall a, Forall space (characters a) -> strip_right a = EmptyString.
Proof.
  induction a as [|x a IH]; intros H; simpl; [reflexivity|]. inversion H as [|? ? X F]; subst.
  apply blank_space in X. rewrite (IH F), X. reflexivity.
Qed.
Lemma strip_right_word : forall a b, a <> EmptyString -> (forall c r, characters a = (r ++ [c])%list -> ~ space c) ->
  Forall space (characters b) -> strip_right (a ++ b) = a.
Proof.
  induction a as [|x a IH]; intros b N H B; [contradiction|]. cbn [append strip_right]. destruct a as [|y a].
  - cbn [append]. rewrite strip_right_spaces by exact B. destruct (blank x) eqn:E; [|reflexivity].
    apply blank_space in E. exfalso. exact (H x [] eq_refl E).
  - rewrite IH; [reflexivity|discriminate| |exact B]. intros c r K. apply (H c (x :: r)). simpl. unfold characters in *. simpl in *.
    rewrite K. reflexivity.
Qed.

Lemma strip_spec : forall text core, trimmed text core -> strip_right (strip_left text) = core.
Proof.
  intros text core (left & right & -> & L & R & A & B & E). rewrite strip_left_spaces by exact L. destruct core as [|x core].
  - rewrite E by reflexivity. reflexivity.
  - rewrite strip_left_word.
    + apply strip_right_word; [discriminate|exact B|exact R].
    + intros c r H. simpl in H. injection H as -> H. exact (A c (characters core) eq_refl).
Qed.

Lemma strip_left_split : forall text, exists left, text = (left ++ strip_left text)%string /\ Forall space (characters left) /\
  forall c r, characters (strip_left text) = c :: r -> ~ space c.
Proof.
  induction text as [|x text (left & E & F & G)].
  - exists EmptyString. split; [reflexivity|]. split; [constructor|]. intros c r H. discriminate.
  - simpl. destruct (blank x) eqn:B.
    + exists (String x left). split; [simpl; rewrite <- E; reflexivity|]. split; [|exact G].
      constructor; [apply blank_space; exact B|exact F].
    + exists EmptyString. split; [reflexivity|]. split; [constructor|]. intros c r H K. injection H as <- _.
      apply blank_space in K. congruence.
Qed.
Lemma strip_right_split : forall text, exists right, text = (strip_right text ++ right)%string /\ Forall space (characters right) /\
  forall c r, characters (strip_right text) = (r ++ [c])%list -> ~ space c.
Proof.
  induction text as [|x text (right & E & F & G)].
  - exists EmptyString. split; [reflexivity|]. split; [constructor|]. intros c r H. destruct r; discriminate.
  - cbn [strip_right]. destruct (strip_right text) as [|y s] eqn:S.
    + destruct (blank x) eqn:B.
      * exists (String x text). split; [reflexivity|]. split; [|intros c r H; destruct r; discriminate].
        constructor; [apply blank_space; exact B|]. rewrite E. exact F.
      * exists right. split; [simpl; rewrite E at 1; reflexivity|]. split; [exact F|].
        intros c r H K. simpl in H. destruct r as [|z r]; [|destruct r; discriminate]. injection H as <-. apply blank_space in K. congruence.
    + exists right. split; [cbn [append]; rewrite E at 1; reflexivity|]. split; [exact F|].
      intros c r H. destruct r as [|z r]; [discriminate|]. apply (G c r). unfold characters in *. simpl in H |- *.
      injection H as _ H. exact H.
Qed.

Lemma strip_trims : forall text, trimmed text (strip_right (strip_left text)).
Proof.
  intros text. destruct (strip_left_split text) as (left & E & L & A).
  destruct (strip_right_split (strip_left text)) as (right & E' & R & B).
  exists left, right. split; [rewrite <- E'; exact E|]. split; [exact L|]. split; [exact R|]. split; [|split; [exact B|]].
  - intros c r H. destruct (strip_left text) as [|x s] eqn:S; [simpl in H; discriminate|].
    apply (A c (characters (substring 1 (String.length s) (String x s)))).
    assert (x = c) as ->.
    { rewrite E' in S. destruct (strip_right (String x s)) as [|y q]; [discriminate|]. simpl in H. injection H as -> _.
      simpl in E'. injection E' as -> _. reflexivity. }
    simpl. f_equal. f_equal. clear. induction s as [|y s IH]; simpl; [reflexivity|]. f_equal. exact IH.
  - intros H. rewrite H in E'. simpl in E'. destruct right as [|x right]; [reflexivity|]. exfalso.
    inversion R as [|? ? X _]; subst. apply (A x (characters right)); [rewrite E'; reflexivity|exact X].
Qed.

(** ** C152 *)

(** A key stands for the families between its slashes, whatever the blanks around
    them and the case of their letters. *)
Theorem C152_family_key : forall w words family, Forall slashless (w :: words) ->
  names_family (String.concat "/" (w :: words)) family = true <-> stands_for (w :: words) family.
Proof.
  intros w words family F. inversion F as [|? ? W F']; subst. unfold names_family, families, stands_for.
  rewrite parts_concat by assumption. cbn [append]. rewrite existsb_exists. split.
  - intros (t & H & E). apply String.eqb_eq in E. subst t. apply in_map_iff in H. destruct H as (v & E & V).
    exists v, (strip_right (strip_left v)). split; [exact V|]. split; [apply strip_trims|exact E].
  - intros (v & core & V & T & E). exists family. split; [|apply String.eqb_refl]. apply in_map_iff. exists v.
    split; [|exact V]. rewrite (strip_spec v core T). exact E.
Qed.

(** Every key is of that form. *)
Lemma parts_slashless : forall s current, slashless current -> Forall slashless (parts s current).
Proof.
  induction s as [|x s IH]; intros current C; simpl; [constructor; [exact C|constructor]|].
  destruct (Ascii.eqb x "/") eqn:E.
  - constructor; [exact C|]. apply IH. intros [].
  - apply IH. unfold slashless. rewrite characters_app. intros H. apply in_app_or in H. destruct H as [H|[H|[]]]; [exact (C H)|].
    subst x. rewrite Ascii.eqb_refl in E. discriminate.
Qed.
Lemma concat_parts : forall s current, String.concat "/" (parts s current) = (current ++ s)%string.
Proof.
  induction s as [|x s IH]; intros current; simpl; [symmetry; apply app_nil_s|].
  destruct (Ascii.eqb x "/") eqn:E.
  - apply Ascii.eqb_eq in E. subst x. destruct (parts s "") as [|p l] eqn:P.
    + exfalso. destruct s as [|y s]; simpl in P; [discriminate|]. specialize (IH ""%string). simpl in IH.
      destruct (Ascii.eqb y "/"); simpl in P; [discriminate|]. rewrite P in IH. discriminate.
    + change (String.concat "/" (current :: p :: l)) with (current ++ "/" ++ String.concat "/" (p :: l))%string.
      rewrite <- P, IH. reflexivity.
  - rewrite IH, app_assoc_s. reflexivity.
Qed.
Theorem C152_family_key_form : forall key, exists w words, key = String.concat "/" (w :: words) /\ Forall slashless (w :: words).
Proof.
  intros key. destruct (parts key "") as [|w words] eqn:P.
  - exfalso. pose proof (parts_slashless key "" (fun H => match H with end)) as _.
    pose proof (concat_parts key "") as E. rewrite P in E. simpl in E. subst key. discriminate.
  - exists w, words. split; [rewrite <- P, concat_parts; reflexivity|]. rewrite <- P. apply parts_slashless. intros [].
Qed.

(** The modifier used: the default one, with what the first entry of the family has
    in its place. *)
Definition provides (m x d : modifier) : Prop :=
  method m = match method x with Some k => Some k | None => method d end /\
  by_temperature m = match by_temperature x with Some k => Some k | None => by_temperature d end /\
  by_frequency m = match by_frequency x with Some k => Some k | None => by_frequency d end /\
  by_bias m = match by_bias x with Some k => Some k | None => by_bias d end /\
  by_flux m = match by_flux x with Some k => Some k | None => by_flux d end.

Theorem C152_family : forall l family d, NoDup (map fst l) -> In ("default"%string, d) l ->
  (resolve l None = Ok d) /\
  ((forall k x, In (k, x) l -> k <> "default"%string -> names_family k family = false) -> resolve l (Some family) = Ok d) /\
  (forall before k x after, l = (before ++ (k, x) :: after)%list -> k <> "default"%string -> names_family k family = true ->
    (forall j y, In (j, y) before -> j <> "default"%string -> names_family j family = false) ->
    exists m, resolve l (Some family) = Ok m /\ provides m x d).
Proof.
  intros l family d N H.
  assert (E : entry_of "default" l = Some d).
  { clear family. induction l as [|[k x] l IH]; [contradiction|]. cbn [entry_of]. simpl in N. inversion N as [|? ? K N']; subst.
    destruct H as [H|H].
    - injection H as -> ->. rewrite String.eqb_refl. reflexivity.
    - destruct (String.eqb k "default") eqn:Q; [|apply IH; assumption]. apply String.eqb_eq in Q. subst k.
      exfalso. apply K. apply in_map_iff. exists ("default"%string, d). auto. }
  unfold resolve. rewrite E. split; [reflexivity|]. split.
  - intros A. replace (entry_for family l) with (@None modifier); [reflexivity|]. clear N H E.
    induction l as [|[k x] l IH]; [reflexivity|]. cbn [entry_for]. destruct (String.eqb k "default") eqn:Q.
    + apply IH. intros j y J. apply (A j y). right. exact J.
    + rewrite (A k x) by (first [left; reflexivity | intros K; subst k; rewrite String.eqb_refl in Q; discriminate]).
      apply IH. intros j y J. apply (A j y). right. exact J.
  - intros before k x after L K M B. replace (entry_for family l) with (Some x).
    + exists (overlay x d). split; [reflexivity|]. unfold provides, overlay, over. simpl.
      repeat split; [destruct (method x)|destruct (by_temperature x)|destruct (by_frequency x)|destruct (by_bias x)|destruct (by_flux x)]; reflexivity.
    + subst l. clear N H E. induction before as [|[j y] before IH]; cbn [app entry_for].
      * destruct (String.eqb k "default") eqn:Q; [apply String.eqb_eq in Q; contradiction|]. rewrite M. reflexivity.
      * destruct (String.eqb j "default") eqn:Q.
        -- apply IH. intros i z I. apply (B i z). right. exact I.
        -- rewrite (B j y) by (first [left; reflexivity | intros J; subst j; rewrite String.eqb_refl in Q; discriminate]).
           apply IH. intros i z I. apply (B i z). right. exact I.
Qed.

(** Without a default entry there is no answer. *)
Theorem C152_default_required : forall spline samples amplitude c p l temperature h frequency flux family,
  with_formula c p -> modifiers p = Some l -> (forall x, ~ In ("default"%string, x) l) ->
  exists e, answer spline samples amplitude c temperature h frequency flux family = Throw e.
Proof.
  intros spline samples amplitude c p l temperature h frequency flux family W M N.
  exists "InvalidInputException"%string. unfold answer, permeability, plain. rewrite W. unfold formula. rewrite M. unfold resolve.
  replace (entry_of "default" l) with (@None modifier); [reflexivity|]. clear M.
  induction l as [|[k x] l IH]; [reflexivity|]. cbn [entry_of]. destruct (String.eqb k "default") eqn:Q.
  - apply String.eqb_eq in Q. subst k. exfalso. apply (N x). left. reflexivity.
  - apply IH. intros y Y. apply (N y). right. exact Y.
Qed.

(** ** What does not hold *)

Definition bare : modifier := empty_modifier.
Definition one (m : modifier) (v : R) : material :=
  {| name := "Kool"; initial := Formula {| value := v; at_temperature := None; at_frequency := None; at_bias := None;
                                           modifiers := Some [("default"%string, m)] |}; curie := None |}.

(** The formulas do not stop at 1, nor at zero. *)
Theorem C152_negative_refuted : forall spline samples amplitude, exists c t,
  answer spline samples amplitude c (Some t) None None None None = Ok (-(60)).
Proof.
  intros spline samples amplitude.
  exists (one {| method := Some FairRite; by_temperature := Some {| ta := -(2); tb := None; tc := None; td := None; te := None |};
                 by_frequency := None; by_bias := None; by_flux := None |} 60), 100.
  unfold answer, permeability, plain. simpl. f_equal. lra.
Qed.

(** Micrometals: with a correction for the flux density the permeability without
    flux is zero. *)
Theorem C152_zero_flux_refuted : forall spline samples amplitude m f c l p family,
  with_formula c p -> modifiers p = Some l -> resolve l family = Ok m -> method m = Some Micrometals -> by_flux m = Some f ->
  0 < xe f -> 0 < xc f -> answer spline samples amplitude c None None None (Some 0) family = Ok 0.
Proof.
  intros spline samples amplitude m f c l p family W HL HR HK HF E C. apply (ask_ok spline samples amplitude c p); [assumption|apply cold_none|].
  unfold formula. rewrite HL, HR. cbn [bind]. rewrite HK, HF. unfold applied. cbn [bind]. unfold micrometals_flux, falling.
  rewrite !cpow_0 by assumption. cbn [fadd fmul fmap2]. unfold parallel. rewrite !Rmult_0_r.
  destruct (Req_EM_T (xa f + 0) 0); [|destruct (Req_EM_T 0 0); [|contradiction]];
    destruct (by_frequency m); cbn [fmul fmap2]; do 2 f_equal; ring.
Qed.

(** A modifier without a method is read without asking. *)
Theorem C152_no_method_refuted : forall spline samples amplitude v,
  exists e, answer spline samples amplitude (one bare v) None None None None None = UB e.
Proof. intros. eexists. reflexivity. Qed.

(** ** Witnesses *)

Definition kool : modifier :=
  {| method := Some Magnetics;
     by_temperature := Some {| ta := 0; tb := Some 0; tc := Some 0; td := Some 0; te := Some 0 |};
     by_frequency := Some {| fa := 0; fb := 0; fc := 0; fd := 0; fe := Some 0 |};
     by_bias := Some {| ba := 1 / 100; bb := 1 / 1000000; bc := 2; bd := None |}; by_flux := None |}.
Example C152_witness_sensible : sensible kool.
Proof. unfold sensible. simpl. lra. Qed.
Example C152_witness_resolve : resolve [("EQ / er"%string, bare); ("default"%string, kool)] (Some "ER"%string) = Ok kool /\
  names_family "EQ / er" "ER" = true /\ names_family "EQ / er" "E" = false.
Proof. repeat split; reflexivity. Qed.
Example C152_witness_bias : exists v, answer (fun _ _ => 0) [] (fun _ _ _ _ => Ok None) (one kool 60) (Some 25) (Some 100) (Some 1000) None None = Ok v.
Proof.
  unfold answer, permeability, plain, one, formula. simpl. unfold magnetics_bias.
  assert (0 < ba {| ba := 1 / 100; bb := 1 / 1000000; bc := 2; bd := None |}) by (simpl; lra).
  assert (0 <= bb {| ba := 1 / 100; bb := 1 / 1000000; bc := 2; bd := None |}) by (simpl; lra).
  assert (0 < bc {| ba := 1 / 100; bb := 1 / 1000000; bc := 2; bd := None |}) by (simpl; lra).
  destruct (falling_pos _ _ _ (thousandths 100) H H0 H1 (thousandths_nonneg 100)) as (-> & P).
  rewrite fdiv_some by lra. eexists. reflexivity.
Qed.
Example C152_witness_key : Forall slashless ["EQ "%string; " er"%string] /\ stands_for ["EQ "%string; " er"%string] "ER".
Proof.
  split.
  - repeat constructor; unfold slashless; simpl; intuition discriminate.
  - apply (C152_family_key "EQ " [" er"%string] "ER"); [|reflexivity].
    repeat constructor; unfold slashless; simpl; intuition discriminate.
Qed.

Print Assumptions C152_family_key.
Print Assumptions C152_family.
Print Assumptions C152_zero_flux_refuted.
