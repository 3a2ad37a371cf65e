(** Properties of text handling: C27 (splitting), C30 (micro sign), C35 (document
    migration), C41 (NDJSON catalogs), C48 (file names). *)
From Coq Require Import List String Ascii Bool Arith NArith ZArith QArith Lia.
From Verif Require Import Base TextModel TextProofs.
Import ListNotations.
Open Scope nat_scope.
Open Scope string_scope.

(** * Vocabulary *)
(** [d] occurs in [s]. *)
Definition contains (d s : string) : Prop := exists u v, s = u ++ d ++ v.
(** Each piece but the last ends where the delimiter first occurs in the text
    that was left. *)
Fixpoint cut_at_first (d : string) (ps : list string) : Prop :=
  match ps with
  | [] | [_] => True
  | p :: r => (forall u v, concat d ps = u ++ d ++ v -> String.length p <= String.length u)
              /\ cut_at_first d r
  end.

(** * C27 *)
Lemma split_loop_spec fuel : forall s d, d <> "" -> String.length s < fuel ->
  exists ps, split_loop fuel s d = Ok ps /\ ps <> [] /\ concat d ps = s
    /\ Forall (fun p => ~ contains d p) ps /\ cut_at_first d ps.
Proof.
  induction fuel as [|fuel IH]; intros s d D L; [lia|].
  cbn [split_loop]. destruct (find_first d s) as [pos|] eqn:F.
  - destruct (find_first_some _ _ _ F) as (u & v & Es & Lu & First).
    assert (Ed : drop (pos + String.length d) s = v).
    { rewrite Es, <- Lu, <- length_append, <- append_assoc. apply drop_length. }
    assert (Et : take pos s = u) by (rewrite Es, <- Lu; apply take_length).
    rewrite Ed, Et.
    assert (Lv : String.length v < fuel).
    { rewrite Es, !length_append in L. destruct d; [congruence|]. simpl in L. lia. }
    destruct (IH v d D Lv) as (ps & E1 & E2 & E3 & E4 & E5).
    exists (u :: ps). rewrite E1. cbn [bind].
    assert (EC : concat d (u :: ps) = s).
    { destruct ps as [|p ps]; [congruence|]. 
      change (concat d (u :: p :: ps)) with (u ++ d ++ concat d (p :: ps)).
      rewrite E3. now symmetry. }
    split; [reflexivity|]. split; [discriminate|]. split; [exact EC|]. split.
    + constructor; [|exact E4]. intros (a & b & Eu).
      assert (pos <= String.length a).
      { apply (First a (b ++ d ++ v)). rewrite Es, Eu. now rewrite !append_assoc. }
      rewrite <- Lu, Eu, !length_append in H. destruct d; [congruence|]. simpl in H. lia.
    + destruct ps as [|p ps]; [exact I|].
      split; [|exact E5]. intros a b E. rewrite EC in E. rewrite Lu. eapply First, E.
  - exists [s]. split; [reflexivity|]. split; [discriminate|]. split; [reflexivity|]. split; [|exact I].
    constructor; [|constructor]. intros (a & b & E). eapply find_first_none in F. apply F, E.
Qed.

(** C27.  Splitting by a non-empty delimiter ends, joining gives the text back,
    no piece contains the delimiter, and each cut is at its first occurrence. *)
Theorem C27_split_and_join : forall s d, d <> "" ->
  exists pieces, split s d = Ok pieces
    /\ concat d pieces = s
    /\ (forall p, In p pieces -> ~ contains d p)
    /\ cut_at_first d pieces.
Proof.
  intros s d D. destruct (split_loop_spec (S (String.length s)) s d D (Nat.lt_succ_diag_r _))
    as (ps & E1 & _ & E3 & E4 & E5).
  exists ps. repeat split; auto. now apply Forall_forall.
Qed.

Example C27_witness : split "a, b,,c" "," = Ok ["a"; " b"; ""; "c"]
                      /\ split "aaa" "aa" = Ok [""; "a"].
Proof. split; reflexivity. Qed.

(** C27.  The hypothesis is needed: with an empty delimiter the loop never ends. *)
Theorem C27_empty_delimiter_never_ends : forall fuel s, split_loop fuel s "" = OutOfFuel.
Proof.
  induction fuel as [|fuel IH]; intros s; [reflexivity|].
  cbn [split_loop]. assert (F : find_first "" s = Some 0) by (destruct s; reflexivity).
  rewrite F. cbn [String.length]. now rewrite IH.
Qed.

(** * C30 *)
(** A name as a reader sees it: micro signs and other bytes. *)
Inductive sign := Micro | Other (c : ascii).
Definition canonical_of (t : sign) : string :=
  match t with Micro => String C2 (String B5 "") | Other c => String c "" end.
Definition utf8_name (ts : list sign) : string := concat "" (map canonical_of ts).
(** [writes ts s]: [s] is the name with each micro sign in one of the two
    encodings (Windows-1252 byte B5, UTF-8 bytes C2 B5). *)
Inductive writes : list sign -> string -> Prop :=
| writes_nil : writes [] ""
| writes_other c ts s : c <> B5 -> writes ts s -> writes (Other c :: ts) (String c s)
| writes_single ts s : writes ts s -> writes (Micro :: ts) (String B5 s)
| writes_double ts s : writes ts s -> writes (Micro :: ts) (String C2 (String B5 s)).
(** No stray byte C2 in front of a micro sign. *)
Fixpoint plain (ts : list sign) : Prop :=
  match ts with
  | Other c :: ((Micro :: _) as r) => c <> C2 /\ plain r
  | _ :: r => plain r
  | [] => True
  end.

Fixpoint utf8_cat (ts : list sign) : string :=
  match ts with [] => "" | t :: r => canonical_of t ++ utf8_cat r end.
Lemma utf8_name_cat ts : utf8_name ts = utf8_cat ts.
Proof.
  unfold utf8_name. induction ts as [|t ts IH]; [reflexivity|]. simpl in *.
  destruct ts as [|u ts]; simpl in *; [now rewrite append_nil_r|]. now rewrite <- IH.
Qed.

Lemma writes_normalize ts s : writes ts s -> forall last, plain ts ->
  (last = Some C2 -> match ts with Micro :: _ => False | _ => True end) ->
  normalize_from last s = utf8_cat ts.
Proof.
  intros W. induction W as [|c ts s N W IH|ts s W IH|ts s W IH]; intros last P L.
  - reflexivity.
  - cbn [normalize_from]. apply Ascii.eqb_neq in N. rewrite N. cbn [utf8_cat canonical_of append].
    f_equal. apply IH.
    + destruct ts as [|[|] ts]; simpl in P; tauto.
    + intros E. injection E as E. destruct ts as [|[|d] ts]; auto. simpl in P. tauto.
  - cbn [normalize_from]. rewrite Ascii.eqb_refl. cbv iota. cbn [utf8_cat canonical_of append].
    assert (T : normalize_from (Some B5) s = utf8_cat ts).
    { apply IH; [destruct ts as [|[|] ts]; exact P|]. intros E. discriminate E. }
    destruct last as [l|]; [|now rewrite T].
    destruct (Ascii.eqb_spec l C2) as [->|N]; [exfalso; now apply L|]. now rewrite T.
  - cbn [normalize_from]. change (Ascii.eqb C2 B5) with false. cbv iota.
    rewrite Ascii.eqb_refl. cbv iota. rewrite Ascii.eqb_refl. cbv iota.
    cbn [utf8_cat canonical_of append]. do 2 f_equal.
    apply IH; [destruct ts as [|[|] ts]; exact P|]. intros E. discriminate E.
Qed.

(** C30.  Whatever mixture of the two encodings a name uses, it is normalised to
    the UTF-8 spelling of the same name. *)
Theorem C30_both_encodings_become_one : forall ts s, plain ts -> writes ts s ->
  normalize_micro_sign s = utf8_name ts.
Proof.
  intros ts s P W. rewrite utf8_name_cat. apply (writes_normalize ts s W); auto. discriminate.
Qed.

(** C30.  A text without the byte B5 is not changed. *)
Theorem C30_other_texts_unchanged : forall s,
  (forall u v, s <> u ++ String B5 v) -> normalize_micro_sign s = s.
Proof.
  intros s H. apply normalize_without. intros O.
  assert (exists u v, s = u ++ String B5 v) as (u & v & E).
  { clear H. induction s as [|c s IH]; simpl in O; [contradiction|]. destruct O as [->|O].
    - now exists "", s.
    - destruct (IH O) as (u & v & ->). now exists (String c u), v. }
  now apply (H u v).
Qed.

Theorem C30_idempotent : forall s,
  normalize_micro_sign (normalize_micro_sign s) = normalize_micro_sign s.
Proof. intros s. apply normalize_idem. Qed.

(** C30, where the code breaks the claim: the UTF-8 spelling of U+00F5 (o with
    tilde, C3 B5) has no micro sign and is changed all the same. *)
Definition utf8_two (cp : nat) : string :=
  String (byte (192 + cp / 64)) (String (byte (128 + cp mod 64)) "").
Theorem C30_other_letters_refuted : exists cp, 128 <= cp < 2048 /\ cp <> 181
  /\ normalize_micro_sign (utf8_two cp) <> utf8_two cp.
Proof. exists 245. repeat split; try lia. vm_compute. discriminate. Qed.

Example C30_witness :
  let micro := String B5 "" in
  plain [Other "6"%char; Micro; Other "m"%char]
  /\ writes [Other "6"%char; Micro; Other "m"%char] ("6" ++ micro ++ "m")
  /\ normalize_micro_sign ("6" ++ micro ++ "m") = "6" ++ utf8_two 181 ++ "m".
Proof.
  cbv zeta. split; [|split; [|reflexivity]].
  - split; [discriminate|exact I].
  - constructor; [discriminate|]. apply writes_single. constructor; [discriminate|]. constructor.
Qed.

(** * C41 *)
Section C41.
  Context {J : Type} (parse : string -> option J).

  Definition LFs : string := String LF "".
  Definition CRLF : string := String CR (String LF "").
  (** A line of a catalog: no newline inside and no carriage return at the end. *)
  Definition catalog_line (l : string) : Prop :=
    ~ contains LFs l /\ forall t, l <> t ++ String CR "".
  Definition blank (l : string) : bool := match l with EmptyString => true | _ => false end.
  (** The JSON reader ignores a carriage return after the document. *)
  Definition trailing_cr_is_space : Prop :=
    forall l, l <> "" -> parse (l ++ String CR "") = parse l.

  (** What parsing line after line gives: the entries up to the first malformed
      line, and whether there is one. *)
  Inductive delivers : list string -> list J -> bool -> Prop :=
  | delivers_all : delivers [] [] true
  | delivers_bad l r : parse l = None -> delivers (l :: r) [] false
  | delivers_one l r j js b : parse l = Some j -> delivers r js b -> delivers (l :: r) (j :: js) b.
  Definition verdict (b : bool) : outcome unit := if b then Ok tt else Throw "parse_error".

  Lemma not_contains_occurs l : ~ contains LFs l -> ~ occurs LF l.
  Proof.
    intros H O. apply H. clear H. induction l as [|c l IH]; simpl in O; [contradiction|].
    destruct O as [->|O]; [now exists "", l|].
    destruct (IH O) as (u & v & ->). now exists (String c u), v.
  Qed.

  Lemma loop_line w fuel l rest : ~ occurs LF l ->
    ndjson_loop parse w (S fuel) (l ++ String LF rest)
    = (let line := if w then drop_cr l else l in
       match line with
       | EmptyString => ndjson_loop parse w fuel rest
       | _ => match parse line with
              | None => ([], Throw "parse_error")
              | Some j => let (js, o) := ndjson_loop parse w fuel rest in (j :: js, o)
              end
       end).
  Proof.
    intros O. cbn [ndjson_loop]. rewrite line_of_app, after_line_app by exact O.
    destruct (l ++ String LF rest) eqn:E; [destruct l; discriminate|]. reflexivity.
  Qed.

  Lemma loop_last w fuel l : ~ occurs LF l -> l <> "" ->
    ndjson_loop parse w (S fuel) l
    = (let line := if w then drop_cr l else l in
       match line with
       | EmptyString => ([], Ok tt)
       | _ => match parse line with
              | None => ([], Throw "parse_error")
              | Some j => ([j], Ok tt)
              end
       end).
  Proof.
    intros O N. cbn [ndjson_loop]. rewrite line_of_last, after_line_last by exact O.
    destruct l; [congruence|]. reflexivity.
  Qed.

  (** Lines with terminator [t] (after every line but the last). *)
  Lemma loop_spec w (tail : string) (Htail : tail = "" \/ tail = String CR "")
        (Hcr : tail = String CR "" -> trailing_cr_is_space) :
    forall lines fuel js b,
    Forall catalog_line lines ->
    (tail = String CR "" -> Forall (fun l => l <> "") lines) ->
    List.length lines < fuel ->
    delivers (filter (fun l => negb (blank l)) lines) js b ->
    ndjson_loop parse w fuel (concat (tail ++ LFs) lines) = (js, verdict b).
  Proof.
    induction lines as [|l r IH]; intros fuel js b C NB L D.
    - inversion D. subst. destruct fuel; [simpl in L; lia|]. reflexivity.
    - destruct fuel as [|fuel]; [simpl in L; lia|].
      inversion C as [|? ? [C1 C2'] C3]. subst.
      assert (Dl : drop_cr l = l) by now apply drop_cr_none.
      destruct r as [|l2 r].
      + cbn [concat]. destruct (string_dec l "") as [->|N].
        * simpl in D. inversion D. subst. reflexivity.
        * rewrite loop_last by (auto using not_contains_occurs).
          assert (B : blank l = false) by (destruct l; [congruence|reflexivity]).
          cbn [filter] in D. rewrite B in D. cbn [negb] in D. cbv zeta.
          assert (E : (if w then drop_cr l else l) = l) by (destruct w; auto). rewrite E.
          destruct l as [|c l]; [congruence|].
          inversion D as [|? ? P|? ? j ? ? P D']; subst; rewrite P; [reflexivity|].
          inversion D'. subst. reflexivity.
      + assert (EC : concat (tail ++ LFs) (l :: l2 :: r)
                     = (l ++ tail) ++ String LF (concat (tail ++ LFs) (l2 :: r))).
        { change (concat (tail ++ LFs) (l :: l2 :: r))
            with (l ++ (tail ++ LFs) ++ concat (tail ++ LFs) (l2 :: r)).
          rewrite !append_assoc. reflexivity. }
        rewrite EC.
        assert (Oc : ~ occurs LF (l ++ tail)).
        { apply not_contains_occurs in C1. intros O. apply C1. clear - O Htail.
          induction l as [|c l IH']; simpl in *.
          - destruct Htail as [->| ->]; simpl in O; [contradiction|]. destruct O as [O|O]; [discriminate|contradiction].
          - destruct O; [now left|right; auto]. }
        rewrite loop_line by exact Oc. cbv zeta.
        assert (IHr : forall js b, delivers (filter (fun l => negb (blank l)) (l2 :: r)) js b ->
                 ndjson_loop parse w fuel (concat (tail ++ LFs) (l2 :: r)) = (js, verdict b)).
        { intros js' b' D'. apply IH; auto; [|simpl in *; lia].
          intros T. specialize (NB T). now inversion NB. }
        destruct (string_dec l "") as [->|N].
        * destruct Htail as [->| ->]; [|exfalso; specialize (NB eq_refl); inversion NB; congruence].
          cbn [filter blank negb] in D. change ("" ++ "") with "". cbn [drop_cr].
          assert (E : (if w then "" else "") = "") by (destruct w; auto). rewrite E.
          apply IHr. exact D.
        * assert (B : blank l = false) by (destruct l; [congruence|reflexivity]).
          cbn [filter] in D. rewrite B in D. cbn [negb] in D.
          assert (Ep : exists line, (if w then drop_cr (l ++ tail) else l ++ tail) = line
                        /\ line <> "" /\ parse line = parse l).
          { destruct Htail as [->| ->].
            - exists l. rewrite append_nil_r, Dl. destruct w; auto.
            - destruct w.
              + exists l. rewrite drop_cr_spec. auto.
              + exists (l ++ String CR ""). repeat split; [destruct l; discriminate|].
                now apply Hcr. }
          destruct Ep as (line & -> & Nl & Pl).
          destruct line as [|c line]; [congruence|]. rewrite Pl.
          inversion D as [|? ? P|? ? j js' ? P D']; subst; rewrite P; [reflexivity|].
          now rewrite (IHr _ _ D').
  Qed.

  Lemma concat_length (sep : string) lines : sep <> "" ->
    List.length lines <= S (String.length (concat sep lines)).
  Proof.
    intros N. induction lines as [|l [|l2 r] IH]; [simpl; lia|simpl; lia|].
    change (concat sep (l :: l2 :: r)) with (l ++ sep ++ concat sep (l2 :: r)).
    rewrite !length_append. destruct sep as [|c sep]; [congruence|].
    cbn [List.length String.length] in *. lia.
  Qed.

  Lemma length_fuel (sep : string) lines : sep <> "" -> concat sep lines <> "" ->
    List.length lines < S (S (String.length (concat sep lines))).
  Proof. intros N _. pose proof (concat_length sep lines N). lia. Qed.
End C41.

Lemma ndjson_fuel {J} (parse : string -> option J) w : forall fuel s,
  String.length s < fuel -> forall fuel', fuel <= fuel' ->
  ndjson_loop parse w fuel' s = ndjson_loop parse w fuel s.
Proof.
  assert (AL : forall s r, after_line s = Some r -> String.length r < String.length s).
  { induction s as [|c s IH]; simpl; [discriminate|]. intros r.
    destruct (Ascii.eqb c LF); [intros [= ->]; lia|]. intros H. apply IH in H. lia. }
  induction fuel as [|fuel IH]; intros s L fuel' F; [lia|].
  destruct fuel' as [|fuel']; [lia|]. cbn [ndjson_loop].
  destruct s as [|c s]; [reflexivity|].
  destruct (after_line (String c s)) as [r|] eqn:E; [|reflexivity].
  apply AL in E. rewrite (IH r) by lia. reflexivity.
Qed.

(** C41.  Unix line endings: whatever the lines, the entries delivered are those
    of the non-blank lines in order, up to the first malformed one, which is
    reported. *)
Theorem C41_lines_in_order : forall J (parse : string -> option J) windows lines js good,
  Forall catalog_line lines ->
  delivers parse (filter (fun l => negb (blank l)) lines) js good ->
  parse_ndjson parse windows (concat LFs lines) = (js, verdict good).
Proof.
  intros J parse w lines js good C D. unfold parse_ndjson.
  set (s := concat LFs lines).
  rewrite <- (ndjson_fuel parse w (S (String.length s)) s (Nat.lt_succ_diag_r _)
               (S (S (String.length s)))) by lia.
  change s with (concat ("" ++ LFs) lines).
  apply loop_spec; auto; try discriminate.
  pose proof (concat_length LFs lines). unfold s. change ("" ++ LFs) with LFs.
  assert (LFs <> "") by discriminate. specialize (H H0). lia.
Qed.

(** C41.  Windows line endings give the same on every platform, for catalogs
    without blank lines. *)
Theorem C41_windows_line_endings : forall J (parse : string -> option J) windows lines js good,
  trailing_cr_is_space parse ->
  Forall catalog_line lines -> Forall (fun l => l <> "") lines ->
  delivers parse lines js good ->
  parse_ndjson parse windows (concat CRLF lines) = (js, verdict good).
Proof.
  intros J parse w lines js good T C N D. unfold parse_ndjson.
  set (s := concat CRLF lines).
  rewrite <- (ndjson_fuel parse w (S (String.length s)) s (Nat.lt_succ_diag_r _)
               (S (S (String.length s)))) by lia.
  change s with (concat (String CR "" ++ LFs) lines).
  apply loop_spec; auto.
  - assert (E : CRLF <> "") by discriminate. pose proof (concat_length CRLF lines E).
    change (String CR "" ++ LFs) with CRLF. unfold s. lia.
  - assert (F : filter (fun l => negb (blank l)) lines = lines).
    { clear - N. induction N as [|l r H N IH]; [reflexivity|]. cbn [filter].
      assert (blank l = false) as -> by (destruct l; [congruence|reflexivity]). cbn [negb]. now rewrite IH. }
    now rewrite F.
Qed.

(** Every list of lines is covered by the two theorems: [delivers] is total. *)
Theorem C41_every_catalog_has_a_verdict : forall J (parse : string -> option J) lines,
  exists js good, delivers parse lines js good.
Proof.
  intros J parse lines. induction lines as [|l r (js & b & IH)].
  - exists [], true. constructor.
  - destruct (parse l) as [j|] eqn:E.
    + exists (j :: js), b. now constructor.
    + exists [], false. now constructor.
Qed.

(** A reader that keeps the text of an entry and rejects empty documents. *)
Fixpoint without_cr (s : string) : string :=
  match s with
  | EmptyString => EmptyString
  | String c r => if Ascii.eqb c CR then without_cr r else String c (without_cr r)
  end.
Definition sample_reader (s : string) : option string :=
  match without_cr s with EmptyString => None | t => Some t end.

(** C41, where the code breaks the claim: elsewhere than on Windows a blank line
    of a file with Windows line endings is reported as malformed, and stops the
    loading of the rest of the catalog. *)
Theorem C41_blank_windows_line_refuted : exists (parse : string -> option string) lines js,
  trailing_cr_is_space parse /\ Forall catalog_line lines
  /\ delivers parse (filter (fun l => negb (blank l)) lines) js true
  /\ parse_ndjson parse true (concat CRLF lines) = (js, Ok tt)
  /\ parse_ndjson parse false (concat CRLF lines) <> (js, Ok tt).
Proof.
  exists sample_reader, ["a"; ""; "b"], ["a"; "b"]. split; [|split; [|split; [|split]]].
  - intros l N. unfold sample_reader.
    assert (E : forall t, without_cr (t ++ String CR "") = without_cr t).
    { induction t as [|c t IH]; [reflexivity|]. simpl. rewrite IH. reflexivity. }
    now rewrite E.
  - repeat constructor; try (intros (u & v & E)); try (intros t E);
      repeat (destruct u as [|? u]; try discriminate); repeat (destruct t as [|? t]; try discriminate).
  - repeat econstructor.
  - reflexivity.
  - vm_compute. discriminate.
Qed.

Example C41_witness :
  delivers sample_reader ["a"; "b"] ["a"; "b"] true
  /\ parse_ndjson sample_reader false (concat CRLF ["a"; "b"]) = (["a"; "b"], Ok tt)
  /\ parse_ndjson sample_reader false (concat LFs ["a"; ""; "b"; ""]) = (["a"; "b"], Ok tt).
Proof. split; [repeat econstructor|split; reflexivity]. Qed.

(** * C35 *)
Inductive step := Key (k : string) | Index (n : nat).
Fixpoint member (l : list (string * json)) (k : string) : option json :=
  match l with
  | [] => None
  | (k', v) :: r => if String.eqb k k' then Some v else member r k
  end.
Fixpoint at_path (j : json) (p : list step) : option json :=
  match p with
  | [] => Some j
  | Key k :: p' => match j with
                   | JObj l => match member l k with Some v => at_path v p' | None => None end
                   | _ => None
                   end
  | Index n :: p' => match j with
                     | JArr l => match nth_error l n with Some v => at_path v p' | None => None end
                     | _ => None
                     end
  end.
Definition outside_costs (p : list step) : Prop := ~ In (Key "cost") p.
(** The old and new spelling of the enumeration values. *)
Definition renamed (old new : string) : Prop := lookup mapping old = Some new.
Definition current (s : string) : Prop := forall new, ~ renamed s new.

Lemma member_map l k : member (map migrate_member l) k
  = match member l k with
    | Some v => Some (if String.eqb k "cost" then migrate_cost v else migrate v)
    | None => None
    end.
Proof.
  induction l as [|[k' v] r IH]; [reflexivity|]. cbn [map migrate_member member fst snd].
  destruct (String.eqb_spec k k') as [->|N]; [reflexivity|exact IH].
Qed.

Lemma migrate_at p : forall j, outside_costs p ->
  at_path (migrate j) p = option_map migrate (at_path j p).
Proof.
  induction p as [|[k|n] p IH]; intros j O; [reflexivity| |].
  - assert (k <> "cost") by (intros ->; apply O; now left).
    assert (outside_costs p) by (intros H'; apply O; now right).
    destruct j as [| | |s|l|l]; try reflexivity.
    + simpl. now destruct (lookup mapping s).
    + rewrite migrate_obj. cbn [at_path]. rewrite member_map.
      destruct (member l k) as [v|]; [|reflexivity].
      apply String.eqb_neq in H. rewrite H. now apply IH.
  - assert (outside_costs p) by (intros H'; apply O; now right).
    destruct j as [| | |s|l|l]; try reflexivity.
    + simpl. now destruct (lookup mapping s).
    + cbn [migrate at_path]. rewrite nth_error_map.
      destruct (nth_error l n); [now apply IH|reflexivity].
Qed.

(** C35.  Every enumeration value spelled the old way, anywhere outside a cost,
    gets its new spelling; every other scalar stays, and nothing appears or
    disappears. *)
Theorem C35_values_are_renamed : forall j p, outside_costs p ->
  (forall old new, at_path j p = Some (JStr old) -> renamed old new ->
     at_path (migrate j) p = Some (JStr new))
  /\ (forall s, at_path j p = Some (JStr s) -> current s -> at_path (migrate j) p = Some (JStr s))
  /\ (forall q, at_path j p = Some (JNum q) <-> at_path (migrate j) p = Some (JNum q))
  /\ (forall b, at_path j p = Some (JBool b) <-> at_path (migrate j) p = Some (JBool b))
  /\ (at_path j p = Some JNull <-> at_path (migrate j) p = Some JNull)
  /\ (at_path j p = None <-> at_path (migrate j) p = None).
Proof.
  intros j p O. rewrite (migrate_at p j O).
  assert (A : forall s, migrate (JStr s) = match lookup mapping s with Some v => JStr v | None => JStr s end)
    by reflexivity.
  repeat split.
  - intros old new E R. rewrite E. cbn [option_map]. rewrite A, R. reflexivity.
  - intros s E C. rewrite E. cbn [option_map]. rewrite A.
    destruct (lookup mapping s) eqn:L; [exfalso; eapply C, L|reflexivity].
  - intros ->; reflexivity.
  - destruct (at_path j p) as [[| | |s|l|l]|]; cbn [option_map]; try discriminate; try tauto.
    rewrite A. destruct (lookup mapping s); discriminate.
  - intros ->; reflexivity.
  - destruct (at_path j p) as [[| | |s|l|l]|]; cbn [option_map]; try discriminate; try tauto.
    rewrite A. destruct (lookup mapping s); discriminate.
  - intros ->; reflexivity.
  - destruct (at_path j p) as [[| | |s|l|l]|]; cbn [option_map]; try discriminate; try tauto.
    rewrite A. destruct (lookup mapping s); discriminate.
  - intros ->; reflexivity.
  - destruct (at_path j p); [discriminate|reflexivity].
Qed.

(** C35.  Keys are kept, in their order. *)
Theorem C35_keys_are_kept : forall l, exists l', migrate (JObj l) = JObj l' /\ map fst l' = map fst l.
Proof.
  intros l. rewrite migrate_obj. eexists. split; [reflexivity|].
  rewrite map_map. reflexivity.
Qed.

(** C35.  After migration no old spelling is left outside the costs, and every
    cost found on the way is an amount with a currency or absent, if it was a
    number or a text before. *)
Theorem C35_nothing_old_is_left : forall j p s, outside_costs p ->
  at_path (migrate j) p = Some (JStr s) -> current s.
Proof.
  intros j p s O E new R. rewrite (migrate_at p j O) in E.
  destruct (at_path j p) as [[| | |t|l|l]|]; cbn [option_map] in E; try discriminate.
  cbn [migrate] in E. destruct (lookup mapping t) as [v|] eqn:L.
  - injection E as E. subst v. unfold renamed in R. rewrite (mapping_is_final _ _ L) in R. discriminate.
  - injection E as E. subst t. unfold renamed in R. congruence.
Qed.

Lemma at_path_app p : forall j q, at_path j (p ++ q)%list
  = match at_path j p with Some v => at_path v q | None => None end.
Proof.
  induction p as [|[k|n] p IH]; intros j q; [reflexivity| |]; cbn [app at_path].
  - destruct j; try reflexivity. destruct (member l k); [apply IH|reflexivity].
  - destruct j; try reflexivity. destruct (nth_error l n); [apply IH|reflexivity].
Qed.

Theorem C35_costs_become_amounts : forall j p, outside_costs p ->
  let cost := (p ++ [Key "cost"])%list in
  (forall q, at_path j cost = Some (JNum q) ->
     at_path (migrate j) (cost ++ [Key "value"])%list = Some (JNum q)
     /\ at_path (migrate j) (cost ++ [Key "currency"])%list = Some (JStr "USD"))
  /\ (forall s, at_path j cost = Some (JStr s) -> at_path (migrate j) cost = Some JNull)
  /\ (forall v, at_path j cost = Some v ->
        (forall q, v <> JNum q) -> (forall s, v <> JStr s) -> at_path (migrate j) cost = Some v).
Proof.
  intros j p O cost.
  assert (A : at_path (migrate j) cost = option_map migrate_cost (at_path j cost)).
  { unfold cost. rewrite !at_path_app, (migrate_at p j O).
    destruct (at_path j p) as [v|]; [|reflexivity]. cbn [option_map].
    destruct v as [| | |s|l|l]; try reflexivity.
    - cbn [migrate]. now destruct (lookup mapping s).
    - rewrite migrate_obj. cbn [at_path]. rewrite member_map.
      destruct (member l "cost"); reflexivity. }
  split; [|split].
  - intros q E. rewrite !at_path_app, A, E. split; reflexivity.
  - intros s E. rewrite A, E. reflexivity.
  - intros v E N1 N2. rewrite A, E. destruct v; try reflexivity.
    + exfalso. eapply N1. reflexivity.
    + exfalso. eapply N2. reflexivity.
Qed.

Theorem C35_idempotent : forall j, migrate (migrate j) = migrate j.
Proof. exact migrate_idem. Qed.

(** C35, where the code breaks its stated no-op on current documents: the walk
    does not know which strings are enumeration values, so a free text that
    happens to be an old spelling is changed. *)
Theorem C35_free_text_refuted : exists j,
  at_path j [Key "description"] = Some (JStr "Isolation") /\ migrate j <> j.
Proof.
  exists (JObj [("description", JStr "Isolation")]). split; [reflexivity|]. vm_compute. discriminate.
Qed.

Example C35_witness :
  let j := JObj [("cost", JNum 3); ("topology", JArr [JStr "Flyback Converter"; JNull])] in
  renamed "Flyback Converter" "flybackConverter"
  /\ migrate j = JObj [("cost", JObj [("currency", JStr "USD"); ("value", JNum 3)]);
                       ("topology", JArr [JStr "flybackConverter"; JNull])].
Proof. split; reflexivity. Qed.

(** * C48 *)
Definition in_range (c : ascii) (a b : nat) : Prop := a <= nat_of_ascii c <= b.
(** A letter, a digit or an underscore. *)
Definition identifier_char (c : ascii) : Prop :=
  in_range c 65 90 \/ in_range c 97 122 \/ in_range c 48 57 \/ nat_of_ascii c = 95.

Lemma name_char_iff c : name_char c = true <-> identifier_char c.
Proof.
  unfold name_char, identifier_char, in_range.
  rewrite !orb_true_iff, !andb_true_iff, !Nat.leb_le, Nat.eqb_eq. tauto.
Qed.

Lemma fix_get s n : get n (fix_filename s)
  = option_map (fun c => if name_char c then c else "_"%char) (get n s).
Proof.
  revert n. induction s as [|c s IH]; intros [|n]; try reflexivity. simpl. apply IH.
Qed.

(** C48.  A reference of any bytes becomes a name of the same length that a
    circuit simulator reads as one identifier, and characters that were fine are
    kept. *)
Theorem C48_names_are_identifiers : forall s,
  String.length (fix_filename s) = String.length s
  /\ (forall n c, get n (fix_filename s) = Some c -> identifier_char c)
  /\ (forall n c, get n s = Some c -> identifier_char c -> get n (fix_filename s) = Some c)
  /\ (forall n c, get n s = Some c -> ~ identifier_char c -> get n (fix_filename s) = Some "_"%char).
Proof.
  intros s. split; [|split; [|split]].
  - induction s as [|c s IH]; simpl; [reflexivity|now rewrite IH].
  - intros n c. rewrite fix_get. destruct (get n s) as [d|]; simpl; [|discriminate].
    destruct (name_char d) eqn:E; intros [= <-]; [now apply name_char_iff|].
    right. right. right. reflexivity.
  - intros n c G I. rewrite fix_get, G. simpl. apply name_char_iff in I. now rewrite I.
  - intros n c G I. rewrite fix_get, G. simpl. destruct (name_char c) eqn:E; [|reflexivity].
    apply name_char_iff in E. contradiction.
Qed.

Theorem C48_idempotent : forall s, fix_filename (fix_filename s) = fix_filename s.
Proof.
  induction s as [|c s IH]; [reflexivity|]. simpl. rewrite IH. f_equal.
  destruct (name_char c) eqn:E; [now rewrite E|reflexivity].
Qed.

(** C48, the limit: different references can end as the same subcircuit name. *)
Theorem C48_distinct_references_can_clash_refuted :
  exists a b, a <> b /\ fix_filename a = fix_filename b.
Proof. exists "L-1", "L.1". split; [discriminate|reflexivity]. Qed.

Example C48_witness : fix_filename "TR 3.5-A" = "TR_3_5_A".
Proof. reflexivity. Qed.

Print Assumptions C27_split_and_join.
Print Assumptions C27_empty_delimiter_never_ends.
Print Assumptions C30_both_encodings_become_one.
Print Assumptions C30_other_texts_unchanged.
Print Assumptions C30_idempotent.
Print Assumptions C30_other_letters_refuted.
Print Assumptions C41_lines_in_order.
Print Assumptions C41_windows_line_endings.
Print Assumptions C41_every_catalog_has_a_verdict.
Print Assumptions C41_blank_windows_line_refuted.
Print Assumptions C35_values_are_renamed.
Print Assumptions C35_keys_are_kept.
Print Assumptions C35_nothing_old_is_left.
Print Assumptions C35_costs_become_amounts.
Print Assumptions C35_idempotent.
Print Assumptions C35_free_text_refuted.
Print Assumptions C48_names_are_identifiers.
Print Assumptions C48_idempotent.
Print Assumptions C48_distinct_references_can_clash_refuted.
