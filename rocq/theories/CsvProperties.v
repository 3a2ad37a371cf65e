(** C203, C204: reading the file of a simulation. *)
From Coq Require Import List Bool Ascii String QArith Arith Lia.
From Verif Require Import Base CsvModel.
Import ListNotations.
Local Open Scope nat_scope.

(** * C203: fields and separators *)
Fixpoint joined (sep : ascii) (fs : list text) : text :=
  match fs with
  | [] => []
  | [f] => f
  | f :: r => f ++ sep :: joined sep r
  end.
(** A stretch of text with no separator that counts, read from the state [st]. *)
Fixpoint bare (sep : ascii) (st : bool * nat) (s : text) : Prop :=
  match s with [] => True | c :: r => naked sep c (step st c) = false /\ bare sep (step st c) r end.
(** The state a stretch is left in. *)
Definition after (st : bool * nat) (s : text) : bool * nat := fold_left step s st.
(** A field whose quotes and parentheses are closed. *)
Definition sealed (sep : ascii) (s : text) : Prop := bare sep (false, 0) s /\ after (false, 0) s = (false, 0).
Definition ordinary (sep : ascii) : Prop := sep <> quote /\ sep <> opening /\ sep <> closing.

Lemma naked_char : forall sep c st, naked sep c st = true -> c = sep /\ st = (false, 0).
Proof.
  intros sep c (q, d) H. unfold naked in H. cbn [fst snd] in H. rewrite !andb_true_iff in H. destruct H as (((_ & A) & B) & C).
  apply Ascii.eqb_eq in A. apply negb_true_iff in B. apply Nat.eqb_eq in C. subst. auto.
Qed.
Lemma split_joined : forall sep line st current, joined sep (split_go sep st current line) = current ++ line.
Proof.
  intros sep. induction line as [|c r IH]; intros st current; cbn [split_go]; [cbn [joined]; now rewrite app_nil_r|].
  destruct (naked sep c (step st c)) eqn:E.
  - apply naked_char in E. destruct E as (-> & _). destruct (split_go sep (step st sep) [] r) as [|f fs] eqn:F.
    + exfalso. clear -F. revert F. generalize (step st sep) as s, (@nil ascii) as cur. induction r as [|x r IHr]; intros s cur F; cbn [split_go] in F; [discriminate|]. destruct (naked sep x (step s x)); [discriminate|apply (IHr _ _ F)].
    + change (joined sep (current :: f :: fs)) with (current ++ sep :: joined sep (f :: fs)). rewrite <- F, IH. reflexivity.
  - rewrite IH, <- app_assoc. reflexivity.
Qed.
(** Nothing is lost: the fields with the separator between them are the line. *)
Theorem C203_lossless : forall sep line, joined sep (split_fields line sep) = line.
Proof. intros. unfold split_fields. rewrite split_joined. reflexivity. Qed.

Lemma after_app : forall st a b, after st (a ++ b) = after (after st a) b.
Proof. intros. unfold after. apply fold_left_app. Qed.
Lemma bare_app : forall sep st a b, bare sep st (a ++ b) <-> bare sep st a /\ bare sep (after st a) b.
Proof. intros sep st a. revert st. induction a as [|c a IH]; intros st b; cbn [app bare after fold_left]; [tauto|]. rewrite IH. unfold after. tauto. Qed.
Lemma split_bare : forall sep line st0 current, bare sep (false, 0) current -> after (false, 0) current = st0 ->
  Forall (fun f => bare sep (false, 0) f) (split_go sep st0 current line) /\
  Forall (fun f => after (false, 0) f = (false, 0)) (removelast (split_go sep st0 current line) ) \/ ~ ordinary sep.
Proof.
  intros sep line. induction line as [|c r IH]; intros st0 current B A; cbn [split_go].
  - left. split; [constructor; [exact B|constructor]|constructor].
  - destruct (naked sep c (step st0 c)) eqn:E.
    + pose proof (naked_char _ _ _ E) as (-> & Z).
      assert (O : ordinary sep \/ ~ ordinary sep).
      { unfold ordinary. destruct (ascii_dec sep quote), (ascii_dec sep opening), (ascii_dec sep closing); tauto. }
      destruct O as [O|O]; [|right; exact O].
      assert (S0 : st0 = (false, 0)).
      { destruct O as (O1 & O2 & O3). unfold step in Z. destruct st0 as (q, d). destruct (Ascii.eqb_spec sep quote); [contradiction|]. destruct q; [discriminate|].
        destruct (Ascii.eqb_spec sep opening); [contradiction|]. destruct (Ascii.eqb_spec sep closing); [contradiction|]. exact Z. }
      destruct (IH (step st0 sep) [] I) as [(F1 & F2)|N]; [rewrite Z; reflexivity| |right; exact N].
      left. split; [constructor; assumption|].
      destruct (split_go sep (step st0 sep) [] r) as [|f fs] eqn:F; [constructor|].
      cbn [removelast] in *. constructor; [rewrite A; exact S0|exact F2].
    + apply IH.
      * apply bare_app. split; [exact B|]. cbn [bare]. rewrite A. auto.
      * rewrite after_app, A. reflexivity.
Qed.
(** No field but the last is left with a quote or a parenthesis open, and no field
    holds a separator that counts. *)
Theorem C203_fields : forall sep line, ordinary sep ->
  Forall (bare sep (false, 0)) (split_fields line sep) /\ Forall (sealed sep) (removelast (split_fields line sep)).
Proof.
  intros sep line O. destruct (split_bare sep line (false, 0) [] I eq_refl) as [(A & B)|N]; [|contradiction].
  unfold split_fields. split; [exact A|]. apply Forall_forall. intros f I0. split.
  - rewrite Forall_forall in A. apply A. clear -I0. induction (split_go sep (false, 0) [] line) as [|x l IH]; [destruct I0|]. cbn [removelast] in I0. destruct l as [|y l]; [destruct I0|]. destruct I0 as [<-|I0]; [left; reflexivity|right; apply IH, I0].
  - rewrite Forall_forall in B. apply B, I0.
Qed.
Lemma split_prefix : forall sep f st current rest, bare sep st f ->
  split_go sep st current (f ++ rest) = split_go sep (after st f) (current ++ f) rest.
Proof.
  intros sep f. induction f as [|c f IH]; intros st current rest B; [now rewrite app_nil_r|]. cbn [bare] in B. destruct B as (B1 & B2).
  cbn [app split_go]. rewrite B1, IH by exact B2. unfold after. cbn [fold_left]. now rewrite <- app_assoc.
Qed.
Lemma step_ordinary : forall sep, ordinary sep -> step (false, 0) sep = (false, 0) /\ naked sep sep (false, 0) = true.
Proof.
  intros sep (O1 & O2 & O3). unfold step, naked. rewrite (proj2 (Ascii.eqb_neq sep quote) O1), (proj2 (Ascii.eqb_neq sep opening) O2), (proj2 (Ascii.eqb_neq sep closing) O3), Ascii.eqb_refl. auto.
Qed.
(** Whatever the fields, quoted separators and probes of two nodes included, a line
    written from them is read back as them. *)
Theorem C203_round_trip : forall sep fs, ordinary sep -> fs <> [] -> Forall (sealed sep) fs -> split_fields (joined sep fs) sep = fs.
Proof.
  intros sep fs O. unfold split_fields. destruct (step_ordinary sep O) as (E1 & E2).
  induction fs as [|f fs IH]; intros N F; [contradiction|]. apply Forall_cons_iff in F. destruct F as ((B & A) & F).
  destruct fs as [|g fs].
  - cbn [joined]. rewrite <- (app_nil_r f) at 1. rewrite split_prefix by exact B. reflexivity.
  - change (joined sep (f :: g :: fs)) with (f ++ sep :: joined sep (g :: fs)). rewrite split_prefix by exact B. rewrite A.
    cbn [split_go]. rewrite E1, E2. f_equal. apply IH; [discriminate|exact F].
Qed.
(** The fields of a file, by a grammar: ordinary characters, quoted stretches and
    parentheses, inside which anything closed may stand, separators included. *)
Definition usual (c : ascii) : Prop := c <> quote /\ c <> opening /\ c <> closing.
Inductive nested : text -> Prop :=
  | nested_nil : nested []
  | nested_char : forall c t, usual c -> nested t -> nested (c :: t)
  | nested_quoted : forall s t, ~ In quote s -> nested t -> nested (quote :: s ++ quote :: t)
  | nested_group : forall s t, nested s -> nested t -> nested (opening :: s ++ closing :: t).
Inductive cell (sep : ascii) : text -> Prop :=
  | cell_nil : cell sep []
  | cell_char : forall c t, usual c -> c <> sep -> cell sep t -> cell sep (c :: t)
  | cell_quoted : forall s t, ~ In quote s -> cell sep t -> cell sep (quote :: s ++ quote :: t)
  | cell_group : forall s t, nested s -> cell sep t -> cell sep (opening :: s ++ closing :: t).
Lemma step_plain : forall q d c, usual c -> step (q, d) c = (q, d).
Proof.
  intros q d c (A & B & C). unfold step. rewrite (proj2 (Ascii.eqb_neq c quote) A), (proj2 (Ascii.eqb_neq c opening) B), (proj2 (Ascii.eqb_neq c closing) C). now destruct q.
Qed.
Lemma naked_deep : forall sep c q d, naked sep c (q, S d) = false.
Proof. intros. unfold naked. cbn. apply andb_false_r. Qed.
Lemma naked_quoted : forall sep c d, naked sep c (true, d) = false.
Proof. intros. unfold naked. cbn. now rewrite andb_false_r. Qed.
Lemma naked_quote : forall sep st, naked sep quote st = false.
Proof. reflexivity. Qed.
Lemma in_quotes : forall sep d s, ~ In quote s -> bare sep (true, d) s /\ after (true, d) s = (true, d).
Proof.
  intros sep d s. induction s as [|c s IH]; intro N; [split; constructor|].
  assert (E : step (true, d) c = (true, d)). { unfold step. rewrite (proj2 (Ascii.eqb_neq c quote)); [reflexivity|intros ->; apply N; left; reflexivity]. }
  destruct IH as (A & B); [intro; apply N; right; assumption|]. cbn [bare after fold_left]. rewrite E. split; [split; [apply naked_quoted|exact A]|exact B].
Qed.
Lemma quoted_text : forall sep d s t, ~ In quote s ->
  (bare sep (false, d) (quote :: s ++ quote :: t) <-> bare sep (false, d) t) /\ after (false, d) (quote :: s ++ quote :: t) = after (false, d) t.
Proof.
  intros sep d s t N. destruct (in_quotes sep d s N) as (A & B). split.
  - cbn [bare]. change (step (false, d) quote) with (true, d). rewrite naked_quote, bare_app, B. cbn [bare]. change (step (true, d) quote) with (false, d). rewrite naked_quote. tauto.
  - change (after (true, d) (s ++ quote :: t) = after (false, d) t). rewrite after_app, B. reflexivity.
Qed.
Lemma nested_text : forall sep t, nested t -> forall d, bare sep (false, S d) t /\ after (false, S d) t = (false, S d).
Proof.
  intros sep t H. induction H as [|c t P H IH|s t N H IH|s t Hs IHs H IH]; intro d.
  - split; constructor.
  - destruct (IH d) as (A & B). cbn [bare after fold_left]. rewrite (step_plain _ _ _ P). split; [split; [apply naked_deep|exact A]|exact B].
  - destruct (quoted_text sep (S d) s t N) as (A & B). rewrite A, B. apply IH.
  - destruct (IHs (S d)) as (A & B). destruct (IH d) as (A' & B'). cbn [bare]. change (step (false, S d) opening) with (false, S (S d)).
    rewrite naked_deep, bare_app, B. cbn [bare]. change (step (false, S (S d)) closing) with (false, S d). rewrite naked_deep. split; [tauto|].
    change (after (false, S (S d)) (s ++ closing :: t) = (false, S d)). rewrite after_app, B. exact B'.
Qed.
Lemma cell_sealed : forall sep t, ordinary sep -> cell sep t -> sealed sep t.
Proof.
  intros sep t O H. unfold sealed. induction H as [|c t P D H IH|s t N H IH|s t Hs H IH].
  - split; constructor.
  - destruct IH as (A & B). cbn [bare after fold_left]. rewrite (step_plain _ _ _ P). split; [split; [|exact A]|exact B].
    unfold naked. rewrite (proj2 (Ascii.eqb_neq c sep) D). now rewrite andb_false_r.
  - destruct (quoted_text sep 0 s t N) as (A & B). rewrite A, B. exact IH.
  - destruct (nested_text sep s Hs 0) as (A & B). destruct IH as (A' & B'). cbn [bare]. change (step (false, 0) opening) with (false, 1).
    rewrite naked_deep, bare_app, B. cbn [bare]. change (step (false, 1) closing) with (false, 0).
    assert (NC : naked sep closing (false, 0) = false). { unfold naked. rewrite (proj2 (Ascii.eqb_neq closing sep)); [now rewrite andb_false_r|]. intro E. apply (proj2 (proj2 O)). now symmetry. }
    rewrite NC. split; [tauto|]. change (after (false, 1) (s ++ closing :: t) = (false, 0)). rewrite after_app, B. exact B'.
Qed.
Theorem C203_cells : forall sep fs, ordinary sep -> fs <> [] -> Forall (cell sep) fs -> split_fields (joined sep fs) sep = fs.
Proof. intros sep fs O N F. apply C203_round_trip; [exact O|exact N|]. eapply Forall_impl; [|exact F]. intro t. apply cell_sealed, O. Qed.
Lemma split_count : forall sep line st current, List.length (split_go sep st current line) = S (count_go sep st line).
Proof.
  intros sep. induction line as [|c r IH]; intros st current; cbn [split_go count_go]; [reflexivity|].
  destruct (naked sep c (step st c)); cbn [List.length]; rewrite IH; reflexivity.
Qed.
Theorem C203_count : forall sep line, List.length (split_fields line sep) = S (count_separators sep line).
Proof. intros. apply split_count. Qed.

(** The separator guessed is the one that gives most fields, the first of those; a line
    is refused if none gives two. *)
Lemma best_spec : forall line seps best n0,
  match best_go line seps best n0 with
  | Some s => (best = Some s /\ forall x, In x seps -> S (count_separators x line) <= n0) \/
      (exists a b, seps = a ++ s :: b /\ n0 < S (count_separators s line) /\
         (forall x, In x a -> count_separators x line < count_separators s line) /\
         (forall x, In x b -> count_separators x line <= count_separators s line))
  | None => best = None /\ forall x, In x seps -> S (count_separators x line) <= n0
  end.
Proof.
  intros line. induction seps as [|s r IH]; intros best n0; cbn [best_go].
  - destruct best as [s|]; [left|]; (split; [reflexivity|intros x []]).
  - replace (count_separators s line + 1) with (S (count_separators s line)) by lia. destruct (Nat.ltb_spec n0 (S (count_separators s line))) as [L|L].
    + specialize (IH (Some s) (S (count_separators s line))). destruct (best_go line r (Some s) (S (count_separators s line))) as [z|].
      * right. destruct IH as [(E & H)|(a & b & -> & H1 & H2 & H3)].
        -- injection E as <-. exists [], r. split; [reflexivity|]. split; [exact L|]. split; [intros x []|]. intros x I0. specialize (H x I0). lia.
        -- exists (s :: a), b. split; [reflexivity|]. split; [lia|]. split; [|exact H3]. intros x [<-|I0]; [lia|apply H2, I0].
      * destruct IH as (E & _). discriminate.
    + specialize (IH best n0). destruct (best_go line r best n0) as [z|].
      * destruct IH as [(E & H)|(a & b & -> & H1 & H2 & H3)].
        -- left. split; [exact E|]. intros x [<-|I0]; [exact L|apply H, I0].
        -- right. exists (s :: a), b. split; [reflexivity|]. split; [exact H1|]. split; [|exact H3]. intros x [<-|I0]; [lia|apply H2, I0].
      * destruct IH as (E & H). split; [exact E|]. intros x [<-|I0]; [exact L|apply H, I0].
Qed.
Theorem C203_guess : forall line,
  match guess_separator line with
  | Ok s => 2 <= List.length (split_fields line s) /\
      exists a b, candidates = a ++ s :: b /\
        (forall x, In x a -> List.length (split_fields line x) < List.length (split_fields line s)) /\
        (forall x, In x b -> List.length (split_fields line x) <= List.length (split_fields line s))
  | Throw _ => forall x, In x candidates -> split_fields line x = [line]
  | _ => False
  end.
Proof.
  intro line. unfold guess_separator. pose proof (best_spec line candidates None 1) as H. destruct (best_go line candidates None 1) as [s|].
  - destruct H as [(E & _)|(a & b & E & H1 & H2 & H3)]; [discriminate|]. rewrite C203_count. split; [lia|]. exists a, b. split; [exact E|].
    split; intros x I0; rewrite C203_count; [specialize (H2 x I0)|specialize (H3 x I0)]; lia.
  - intros x I0. destruct H as (_ & H). specialize (H x I0). pose proof (C203_count x line) as L. pose proof (C203_lossless x line) as J.
    destruct (split_fields line x) as [|f [|g l]]; cbn [List.length] in L; [lia| |lia]. cbn [joined] in J. now rewrite J.
Qed.
(** Ties go to the comma, then to the semicolon, then to the tabulator, then to the bar. *)
Theorem C203_order : forall line s, guess_separator line = Ok s ->
  2 <= List.length (split_fields line s) /\
  exists a b, [","%char; ";"%char; ascii_of_nat 9; "|"%char] = a ++ s :: b /\
    (forall x, In x a -> List.length (split_fields line x) < List.length (split_fields line s)) /\
    (forall x, In x b -> List.length (split_fields line x) <= List.length (split_fields line s)).
Proof. intros line s H. pose proof (C203_guess line) as G. rewrite H in G. exact G. Qed.
Example C203_cells_witness : cell ","%char (list_ascii_of_string "V((a,b),c)") /\ guess_separator (list_ascii_of_string "a,b;c") = Ok ","%char.
Proof.
  split; [|reflexivity]. apply cell_char; [repeat split; discriminate|discriminate|].
  change (cell ","%char (opening :: (opening :: [ "a"; ","; "b"]%char ++ closing :: [","; "c"]%char) ++ closing :: [])).
  assert (P : forall t, Forall usual t -> nested t) by (induction t as [|c t IH]; intro F; [constructor|]; apply Forall_cons_iff in F; constructor; [apply F|apply IH, F]).
  apply cell_group; [|constructor]. apply nested_group; apply P; repeat constructor; discriminate.
Qed.
(** One parenthesis left open swallows the rest of the line: it is not true that a
    line has as many fields as it was written with. *)
Theorem C203_open_parenthesis_refuted : forall sep f fs, ordinary sep -> (forall c, In c (f ++ joined sep fs) -> c <> quote /\ c <> closing) -> fs <> [] ->
  split_fields (joined sep ((opening :: f) :: fs)) sep = [joined sep ((opening :: f) :: fs)].
Proof.
  intros sep f fs O Q N. assert (E : joined sep ((opening :: f) :: fs) = opening :: (f ++ sep :: joined sep fs)) by (destruct fs; [contradiction|reflexivity]). rewrite E.
  assert (G : forall l d current, (forall c, In c l -> c <> quote /\ c <> closing) -> split_go sep (false, S d) current l = [current ++ l]).
  { induction l as [|c l IH]; intros d current H; cbn [split_go]; [now rewrite app_nil_r|]. destruct (H c (or_introl eq_refl)) as (H1 & H2).
    assert (X : exists d', step (false, S d) c = (false, S d')).
    { unfold step. rewrite (proj2 (Ascii.eqb_neq c quote) H1). destruct (Ascii.eqb c opening); [eauto|]. rewrite (proj2 (Ascii.eqb_neq c closing) H2). eauto. }
    destruct X as (d' & X). rewrite X. replace (naked sep c (false, S d')) with false by (unfold naked; cbn; now rewrite andb_false_r).
    rewrite IH by (intros x I0; apply H; right; exact I0). now rewrite <- app_assoc. }
  unfold split_fields. cbn [split_go]. change (step (false, 0) opening) with (false, 1).
  replace (naked sep opening (false, 1)) with false by (unfold naked; cbn; now rewrite andb_false_r). cbn [app]. rewrite G; [reflexivity|].
  intros c I0. apply in_app_iff in I0. destruct I0 as [I0|[<-|I0]]; [apply Q, in_app_iff; left; exact I0|split; apply O|apply Q, in_app_iff; right; exact I0].
Qed.
Definition T (s : string) : text := list_ascii_of_string s.
Example C203_witness : guess_separator (T "time,V(N009,d),V(n016),I(L1)") = Ok ","%char /\
  split_fields (T "time,V(N009,d),V(n016),I(L1)") "," = [T "time"; T "V(N009,d)"; T "V(n016)"; T "I(L1)"] /\
  Forall (sealed ",") [T "time"; T "V(N009,d)"; T "V(n016)"; T "I(L1)"] /\ ordinary "," /\
  guess_separator (T "time") = Throw "InvalidInput".
Proof.
  split; [reflexivity|]. split; [reflexivity|]. split; [|split; [|reflexivity]].
  - repeat constructor.
  - repeat split; discriminate.
Qed.

(** * C204: from lines to columns *)
Section Reader.
Variable stod : text -> option Q.
Notation row := (row stod). Notation handle := (handle stod). Notation read_lines := (read_lines stod). Notation read_columns := (read_columns stod).

(** What a row adds to a column. *)
Definition added (fields : list text) (j : nat) (new : list Q) : Prop :=
  match nth_error fields j with
  | Some f => match clean f with [] => new = [] | t => exists v, stod t = Some v /\ new = [v] end
  | None => new = []
  end.
Definition column_at (cs : list column) (j : nat) (n : text) (d : list Q) : Prop := nth_error cs j = Some (mkColumn n d).

Lemma push_length : forall cs i v, List.length (push i v cs) = List.length cs.
Proof. induction cs as [|c cs IH]; intros [|i] v; cbn [push List.length]; try reflexivity. now rewrite IH. Qed.
Lemma push_at : forall cs i v j, nth_error (push i v cs) j =
  if Nat.eqb i j then match nth_error cs j with Some c => Some (mkColumn (cname c) (cdata c ++ [v])) | None => None end else nth_error cs j.
Proof.
  induction cs as [|c cs IH]; intros [|i] v [|j]; cbn [push nth_error Nat.eqb]; try reflexivity.
  - destruct (Nat.eqb i j); reflexivity.
  - apply IH.
Qed.
Lemma row_spec : forall fields i cs cs', row i fields cs = Ok cs' ->
  List.length cs' = List.length cs /\
  forall j n d, column_at cs j n d -> exists new, column_at cs' j n (d ++ new) /\
    (if j <? i then new = [] else added fields (j - i) new).
Proof.
  induction fields as [|f r IH]; intros i cs cs' H; cbn [CsvModel.row] in H.
  - injection H as <-. split; [reflexivity|]. intros j n d C. exists []. rewrite app_nil_r. split; [exact C|]. unfold added. destruct (j <? i); [reflexivity|]. now destruct (j - i).
  - destruct (nonempty (clean f)) eqn:E.
    + destruct (List.length cs <=? i) eqn:L; [discriminate|]. destruct (stod (clean f)) as [v|] eqn:V; [|discriminate].
      destruct (IH _ _ _ H) as (A & B). rewrite push_length in A. split; [exact A|]. intros j n d C.
      destruct (Nat.eqb_spec i j) as [->|N].
      * assert (C' : column_at (push j v cs) j n (d ++ [v])) by (unfold column_at in *; rewrite push_at, Nat.eqb_refl, C; reflexivity).
        destruct (B j n _ C') as (new & D & K). rewrite (proj2 (Nat.ltb_lt j (S j))) in K by lia. subst new. rewrite app_nil_r in D. exists [v]. split; [exact D|].
        rewrite Nat.ltb_irrefl, Nat.sub_diag. cbn [added nth_error]. unfold added. cbn [nth_error]. destruct (clean f); [discriminate|]. eauto.
      * assert (C' : column_at (push i v cs) j n d) by (unfold column_at in *; rewrite push_at, (proj2 (Nat.eqb_neq i j) N); exact C).
        destruct (B j n _ C') as (new & D & K). exists new. split; [exact D|]. destruct (Nat.ltb_spec j i) as [L1|L1]; destruct (Nat.ltb_spec j (S i)) as [L2|L2]; try lia; [exact K|].
        replace (j - i) with (S (j - S i)) by lia. exact K.
    + destruct (IH _ _ _ H) as (A & B). split; [exact A|]. intros j n d C. destruct (B j n d C) as (new & D & K). exists new. split; [exact D|].
      destruct (Nat.ltb_spec j i) as [L1|L1]; destruct (Nat.ltb_spec j (S i)) as [L2|L2]; try lia; [exact K| |].
      * replace (j - i) with 0 by lia. unfold added. cbn [nth_error]. destruct (clean f); [exact K|discriminate].
      * replace (j - i) with (S (j - S i)) by lia. exact K.
Qed.
(** A row that is accepted adds its j-th cell to the j-th column and to no other,
    nothing where the cell is blank; no column comes or goes. *)
Theorem C204_row : forall line sep cs cs', cs <> [] -> process_line stod line sep cs = Ok cs' ->
  List.length cs' = List.length cs /\
  forall j n d, column_at cs j n d -> exists new, column_at cs' j n (d ++ new) /\ added (split_fields line sep) j new.
Proof.
  intros line sep cs cs' N H. unfold process_line in H. destruct cs as [|c0 cs0]; [contradiction|]. destruct (row_spec _ _ _ _ H) as (A & B). split; [exact A|].
  intros j n d C. destruct (B j n d C) as (new & D & K). exists new. split; [exact D|]. cbn [Nat.ltb Nat.leb] in K. now rewrite Nat.sub_0_r in K.
Qed.
(** It is refused exactly when some cell that is not blank has no column or no
    number. *)
Lemma row_refused : forall fields i cs,
  (exists cs', row i fields cs = Ok cs') \/
  ((exists w, row i fields cs = Throw w) /\ exists k f, nth_error fields k = Some f /\ clean f <> [] /\ (List.length cs <= i + k \/ stod (clean f) = None)).
Proof.
  induction fields as [|f r IH]; intros i cs; cbn [CsvModel.row]; [left; eauto|]. destruct (nonempty (clean f)) eqn:E.
  - assert (NE : clean f <> []) by (destruct (clean f); discriminate). destruct (Nat.leb_spec (List.length cs) i) as [L|L].
    + right. split; [eauto|]. exists 0, f. split; [reflexivity|]. split; [exact NE|]. left. lia.
    + destruct (stod (clean f)) as [v|] eqn:V.
      * destruct (IH (S i) (push i v cs)) as [H|(H & k & g & A & B & C)]; [left; exact H|right]. split; [exact H|]. exists (S k), g. split; [exact A|]. split; [exact B|]. rewrite push_length in C. destruct C; [left; lia|right; assumption].
      * right. split; [eauto|]. exists 0, f. auto.
  - destruct (IH (S i) cs) as [H|(H & k & g & A & B & C)]; [left; exact H|right]. split; [exact H|]. exists (S k), g. split; [exact A|]. split; [exact B|]. destruct C; [left; lia|right; assumption].
Qed.
Theorem C204_refused : forall line sep cs, cs <> [] ->
  (forall cs', process_line stod line sep cs <> Ok cs') <->
  (exists k f, nth_error (split_fields line sep) k = Some f /\ clean f <> [] /\ (List.length cs <= k \/ stod (clean f) = None)).
Proof.
  intros line sep cs N. unfold process_line. destruct cs as [|c0 cs0]; [contradiction|]. set (cs := c0 :: cs0) in *. split.
  - intro H. destruct (row_refused (split_fields line sep) 0 cs) as [(cs' & E)|(_ & X)]; [exfalso; apply (H cs' E)|exact X].
  - assert (G : forall fields i cs cs' k f, row i fields cs = Ok cs' -> nth_error fields k = Some f -> clean f <> [] -> i + k < List.length cs /\ stod (clean f) <> None).
    { clear. induction fields as [|g r IH]; intros i cs cs' k f H K NE; [destruct k; discriminate|]. cbn [CsvModel.row] in H. destruct k as [|k]; cbn [nth_error] in K.
      - injection K as ->. destruct (clean f) as [|c t] eqn:E; [contradiction|]. cbn [nonempty] in H. destruct (Nat.leb_spec (List.length cs) i); [discriminate|]. split; [lia|]. intro Z. rewrite Z in H. discriminate.
      - destruct (nonempty (clean g)).
        + destruct (Nat.leb_spec (List.length cs) i); [discriminate|]. destruct (stod (clean g)); [|discriminate]. destruct (IH _ _ _ _ _ H K NE) as (A & B). rewrite push_length in A. split; [lia|exact B].
        + destruct (IH _ _ _ _ _ H K NE) as (A & B). split; [lia|exact B]. }
    intros (k & f & A & B & C) cs' H. destruct (G _ _ _ _ _ _ H A B) as (D & E). cbn [Nat.add] in D. destruct C; [lia|contradiction].
Qed.

(** Lines that are blank or comments change nothing, wherever they stand after the
    first. *)
Theorem C204_comments : forall first ls, read_columns (first :: ls) = read_columns (first :: filter (fun l => negb (skippable l)) ls).
Proof.
  intros first ls. unfold CsvModel.read_columns. cbn [CsvModel.read_lines]. destruct (handle (strip_bom first) (None, [])) as [st|w|w|]; cbn [bind]; try reflexivity.
  f_equal. revert st. induction ls as [|l ls IH]; intro st; [reflexivity|]. cbn [filter]. destruct (skippable l) eqn:E; cbn [negb CsvModel.read_lines].
  - replace (handle l st) with (Ok st) by (unfold CsvModel.handle; now rewrite E). cbn [bind]. apply IH.
  - destruct (handle l st); cbn [bind]; try reflexivity. apply IH.
Qed.

(** Files with carriage returns read the same as without. *)
Lemma blank_cr : blank CR = true.
Proof. reflexivity. Qed.
Lemma step_cr : forall st, step st CR = st.
Proof. intros (q, d). unfold step. change (Ascii.eqb CR quote) with false. change (Ascii.eqb CR opening) with false. change (Ascii.eqb CR closing) with false. now destruct q. Qed.
Lemma clean_cr : forall f, clean (f ++ [CR]) = clean f.
Proof. intro f. unfold clean, without_cr. rewrite filter_app. cbn [filter]. rewrite Ascii.eqb_refl. cbn [negb]. now rewrite app_nil_r. Qed.
Definition last_cr (fs : list text) : list text := match fs with [] => [] | f => removelast f ++ [last f [] ++ [CR]] end.
Lemma split_cr : forall sep line st current, sep <> CR -> map clean (split_go sep st current (line ++ [CR])) = map clean (split_go sep st current line).
Proof.
  intros sep line. induction line as [|c r IH]; intros st current N; cbn [app split_go].
  - rewrite step_cr. replace (naked sep CR st) with false.
    + cbn [map]. now rewrite clean_cr.
    + unfold naked. rewrite (proj2 (Ascii.eqb_neq CR sep) (fun e => N (eq_sym e))). now rewrite andb_false_r.
  - destruct (naked sep c (step st c)); [cbn [map]; f_equal|]; apply IH, N.
Qed.
Lemma count_cr : forall sep line st, sep <> CR -> count_go sep st (line ++ [CR]) = count_go sep st line.
Proof.
  intros sep line. induction line as [|c r IH]; intros st N; cbn [app count_go].
  - rewrite step_cr. replace (naked sep CR st) with false; [reflexivity|]. unfold naked. rewrite (proj2 (Ascii.eqb_neq CR sep) (fun e => N (eq_sym e))). now rewrite andb_false_r.
  - now rewrite IH.
Qed.
Lemma candidate_cr : forall s, In s candidates -> s <> CR.
Proof. intros s H. cbn in H. destruct H as [<-|[<-|[<-|[<-|[]]]]]; discriminate. Qed.
Lemma guess_cr : forall line, guess_separator (line ++ [CR]) = guess_separator line.
Proof.
  intro line. unfold guess_separator. assert (G : forall seps best n, (forall s, In s seps -> s <> CR) -> best_go (line ++ [CR]) seps best n = best_go line seps best n).
  { induction seps as [|s r IH]; intros best n H; [reflexivity|]. cbn [best_go]. unfold count_separators. rewrite count_cr by (apply H; left; reflexivity).
    rewrite !IH by (intros x I0; apply H; right; exact I0). reflexivity. }
  now rewrite (G candidates None 1 candidate_cr).
Qed.
Lemma drop_blanks_cr : forall l, drop_blanks (l ++ [CR]) = match drop_blanks l with [] => [] | x => x ++ [CR] end.
Proof. induction l as [|c l IH]; [reflexivity|]. cbn [app drop_blanks]. destruct (blank c); [exact IH|reflexivity]. Qed.
Lemma skippable_cr : forall l, skippable (l ++ [CR]) = skippable l.
Proof.
  intro l. unfold skippable. rewrite drop_blanks_cr. destruct (drop_blanks l) as [|c r]; [reflexivity|]. cbn [app]. destruct r as [|d r]; [|reflexivity].
  cbn [app]. f_equal.
Qed.
Lemma row_clean : forall fs gs i cs, map clean fs = map clean gs -> row i fs cs = row i gs cs.
Proof.
  induction fs as [|f fs IH]; intros [|g gs] i cs H; cbn [map] in H; try discriminate; [reflexivity|].
  injection H as H1 H2. cbn [CsvModel.row]. rewrite H1. destruct (nonempty (clean g)); [|apply IH, H2]. destruct (_ <=? _); [reflexivity|]. destruct (stod (clean g)); [apply IH, H2|reflexivity].
Qed.
Definition good_sep (st : option ascii * list column) : Prop := match fst st with Some s => s <> CR | None => True end.
Lemma handle_cr : forall l st, good_sep st -> handle (l ++ [CR]) st = handle l st.
Proof.
  intros l (o, cs) G. unfold CsvModel.handle. rewrite skippable_cr, guess_cr. destruct (skippable l); [reflexivity|]. cbn [fst snd] in *.
  destruct (match o with Some s => Ok s | None => guess_separator l end) as [sep|w|w|] eqn:E; cbn [bind]; try reflexivity.
  assert (N : sep <> CR).
  { destruct o as [s|]; [injection E as <-; exact G|]. pose proof (C203_guess l) as H. rewrite E in H. destruct H as (_ & a & b & K & _). apply candidate_cr. rewrite K. apply in_elt. }
  unfold process_line. destruct cs as [|c0 cs0].
  - unfold header, split_fields. now rewrite split_cr.
  - unfold split_fields. now rewrite (row_clean _ _ _ _ (split_cr sep l (false, 0) [] N)).
Qed.
Lemma handle_good : forall l st st', handle l st = Ok st' -> good_sep st -> good_sep st'.
Proof.
  intros l (o, cs) st' H G. unfold CsvModel.handle in H. destruct (skippable l); [injection H as <-; exact G|]. cbn [fst snd] in *.
  destruct (match o with Some s => Ok s | None => guess_separator l end) as [sep|w|w|] eqn:E; cbn [bind] in H; try discriminate.
  destruct (process_line stod l sep cs); cbn [bind] in H; try discriminate. injection H as <-. unfold good_sep. cbn [fst].
  destruct o as [s|]; [injection E as <-; exact G|]. pose proof (C203_guess l) as K. rewrite E in K. destruct K as (_ & x1 & x2 & K & _). apply candidate_cr. rewrite K. apply in_elt.
Qed.
Lemma bom_cr : forall l, strip_bom (l ++ [CR]) = strip_bom l ++ [CR].
Proof.
  intros [|a [|b [|c l]]]; cbn [app strip_bom]; try reflexivity.
  - change (Nat.eqb (nat_of_ascii CR) 191) with false. now rewrite andb_false_r.
  - destruct (Nat.eqb _ _ && _ && _); reflexivity.
Qed.
Theorem C204_carriage_returns : forall ls, read_columns (map (fun l => l ++ [CR]) ls) = read_columns ls.
Proof.
  intro ls. unfold CsvModel.read_columns.
  assert (G : forall l st, good_sep st -> read_lines (map (fun l => l ++ [CR]) l) st = read_lines l st).
  { induction l as [|x l IH]; intros st H; [reflexivity|]. cbn [map CsvModel.read_lines]. rewrite handle_cr by exact H.
    destruct (handle x st) as [st'|w|w|] eqn:E; cbn [bind]; try reflexivity. apply IH, (handle_good x st st' E H). }
  destruct ls as [|l ls]; [reflexivity|]. cbn [map CsvModel.read_lines]. rewrite bom_cr, handle_cr by exact I.
  destruct (handle (strip_bom l) (None, [])) as [st'|w|w|] eqn:E; cbn [bind]; try reflexivity. now rewrite (G ls st' (handle_good _ _ _ E I)).
Qed.

(** Which lines are passed over: blank ones and those that begin, after blanks, with a
    hash, an exclamation mark, a star or two slashes. *)
Definition blanks (s : text) : Prop := Forall (fun c => nat_of_ascii c <= 32) s.
Lemma drop_spec : forall s, exists ws, s = ws ++ drop_blanks s /\ blanks ws /\ match drop_blanks s with c :: _ => 32 < nat_of_ascii c | [] => True end.
Proof.
  induction s as [|c s (ws & A & B & C)]; [exists []; repeat constructor|]. cbn [drop_blanks]. unfold blank. destruct (Nat.leb_spec (nat_of_ascii c) 32) as [L|L].
  - exists (c :: ws). split; [cbn [app]; f_equal; exact A|]. split; [constructor; assumption|exact C].
  - exists []. split; [reflexivity|]. split; [constructor|exact L].
Qed.
Lemma drop_app : forall ws s, blanks ws -> drop_blanks (ws ++ s) = drop_blanks s.
Proof. intros ws s B. induction B as [|c ws L B IH]; [reflexivity|]. cbn [app drop_blanks]. unfold blank. rewrite (proj2 (Nat.leb_le _ _) L). exact IH. Qed.
Theorem C204_skipped : forall l, skippable l = true <->
  blanks l \/ exists ws c r, l = ws ++ c :: r /\ blanks ws /\ (In c ["#"; "!"; "*"]%char \/ (c = "/"%char /\ exists r', r = "/"%char :: r')).
Proof.
  intro l. split.
  - intro H. destruct (drop_spec l) as (ws & A & B & C). unfold skippable in H. destruct (drop_blanks l) as [|c r]; [left; rewrite A, app_nil_r; exact B|]. right. exists ws, c, r. split; [exact A|]. split; [exact B|].
    apply orb_true_iff in H. destruct H as [H|H].
    + left. cbn [map existsb] in H. rewrite !orb_true_iff, !Ascii.eqb_eq in H. change (ascii_of_nat 35) with "#"%char in H. change (ascii_of_nat 33) with "!"%char in H. change (ascii_of_nat 42) with "*"%char in H. cbn [In]. intuition.
    + right. apply andb_true_iff in H. destruct H as (H1 & H2). apply Ascii.eqb_eq in H1. split; [exact H1|]. destruct r as [|d r]; [discriminate|]. apply Ascii.eqb_eq in H2. exists r. now rewrite H2.
  - intros [B|(ws & c & r & -> & B & H)].
    + unfold skippable. rewrite <- (app_nil_r l), drop_app by exact B. reflexivity.
    + unfold skippable. rewrite drop_app by exact B. destruct H as [H|(-> & r' & ->)]; [|reflexivity]. cbn [In] in H. destruct H as [<-|[<-|[<-|[]]]]; reflexivity.
Qed.
(** What is read from a cell: blanks around it, quotes around it and carriage returns
    are not part of it. *)
Definition solid (x : text) : Prop :=
  ~ In CR x /\ (forall c r, x = c :: r -> 32 < nat_of_ascii c /\ c <> quote) /\ (forall c r, x = r ++ [c] -> 32 < nat_of_ascii c).
Lemma trim_padded : forall ws x ws', blanks ws -> blanks ws' -> solid x -> trim (ws ++ x ++ ws') = x.
Proof.
  intros ws x ws' B B' (_ & S1 & S2). unfold trim. rewrite drop_app by exact B. destruct x as [|c x].
  - cbn [app]. replace (drop_blanks ws') with (@nil ascii); [reflexivity|]. symmetry. rewrite <- (app_nil_r ws'). rewrite drop_app by exact B'. reflexivity.
  - destruct (S1 c x eq_refl) as (L & _). cbn [app drop_blanks]. unfold blank at 1. rewrite (proj2 (Nat.leb_gt _ _) L).
    change (c :: x ++ ws') with ((c :: x) ++ ws'). rewrite rev_app_distr. rewrite drop_app by (apply Forall_rev; exact B').
    destruct (exists_last (l := c :: x)) as (r & d & E); [discriminate|]. rewrite E. specialize (S2 d r E). rewrite rev_app_distr. cbn [rev app drop_blanks]. unfold blank. rewrite (proj2 (Nat.leb_gt _ _) S2).
    change (d :: rev r) with (rev [d] ++ rev r). rewrite <- rev_app_distr, rev_involutive. reflexivity.
Qed.
Lemma cr_none : forall x, ~ In CR x -> without_cr x = x.
Proof. induction x as [|c x IH]; intro H; [reflexivity|]. cbn [without_cr filter]. destruct (Ascii.eqb_spec c CR) as [->|N]; [exfalso; apply H; left; reflexivity|]. cbn [negb]. f_equal. apply IH. intro K. apply H. right. exact K. Qed.
Lemma unquoted_quoted : forall m, unquoted (quote :: m ++ [quote]) = m.
Proof. intro m. unfold unquoted. rewrite rev_app_distr. cbn [rev app]. rewrite !Ascii.eqb_refl. cbn [andb]. apply rev_involutive. Qed.
Lemma unquoted_other : forall c s, c <> quote -> unquoted (c :: s) = c :: s.
Proof. intros c s N. unfold unquoted. destruct (rev s); [reflexivity|]. rewrite (proj2 (Ascii.eqb_neq c quote) N). reflexivity. Qed.
Theorem C204_cell : forall ws x ws', blanks ws -> blanks ws' -> ~ In CR ws -> ~ In CR ws' -> solid x ->
  clean (ws ++ x ++ ws') = x /\ clean (quote :: (ws ++ x ++ ws') ++ [quote]) = x /\ clean (ws ++ x ++ ws' ++ [CR]) = x.
Proof.
  intros ws x ws' B B' N N' S. destruct S as (SC & S1 & S2). assert (S : solid x) by (repeat split; auto; apply (S1 c r H)).
  assert (W : without_cr (ws ++ x ++ ws') = ws ++ x ++ ws') by (apply cr_none; rewrite !in_app_iff; tauto).
  assert (Q : unquoted (ws ++ x ++ ws') = ws ++ x ++ ws').
  { destruct ws as [|c ws].
    - cbn [app]. destruct x as [|c x]; [|apply unquoted_other, (S1 c x eq_refl)]. cbn [app]. destruct ws' as [|c ws']; [reflexivity|]. apply unquoted_other. intros ->. inversion B' as [|? ? L _]; subst. cbn in L. lia.
    - apply unquoted_other. intros ->. inversion B as [|? ? L _]; subst. cbn in L. lia. }
  assert (C1 : clean (ws ++ x ++ ws') = x) by (unfold clean; rewrite W, Q; apply trim_padded; assumption).
  split; [exact C1|]. split.
  - unfold clean. replace (without_cr (quote :: (ws ++ x ++ ws') ++ [quote])) with (quote :: (ws ++ x ++ ws') ++ [quote]).
    + rewrite unquoted_quoted. apply trim_padded; assumption.
    + symmetry. apply cr_none. cbn [In]. rewrite !in_app_iff. cbn [In]. intros [H|[H|[H|[]]]]; [discriminate|tauto|discriminate].
  - rewrite !app_assoc, clean_cr, <- app_assoc. exact C1.
Qed.
(** Full claim: a quoted cell is read without its quotes.  False with a blank outside
    them. *)
Theorem C204_padded_quotes_refuted : forall x, solid x -> x <> [] -> clean (" "%char :: quote :: x ++ [quote]) = quote :: x ++ [quote].
Proof.
  intros x S N. unfold clean. destruct S as (SC & _). rewrite cr_none by (cbn [In]; rewrite in_app_iff; cbn [In]; intros [H|[H|[H|[H|[]]]]]; try discriminate; contradiction).
  rewrite unquoted_other by discriminate. unfold trim. cbn [drop_blanks]. change (blank " ") with true. change (blank quote) with false. cbn [rev]. rewrite rev_app_distr. cbn [rev app drop_blanks]. change (blank quote) with false.
  cbn [rev]. rewrite rev_app_distr, rev_involutive. reflexivity.
Qed.
(** A byte order mark at the start of the file changes nothing. *)
Theorem C204_mark : forall l ls, strip_bom l = l -> read_columns ((map ascii_of_nat [239; 187; 191] ++ l) :: ls) = read_columns (l :: ls).
Proof. intros l ls H. unfold CsvModel.read_columns. rewrite H. reflexivity. Qed.

(** A table whose names are not blank is read column by column. *)
Definition plain (sep : ascii) (f : text) : Prop := sealed sep f /\ clean f = f /\ f <> [].
Lemma rows_table : forall sep rows cs values, ordinary sep -> cs <> [] ->
  Forall (fun r => List.length r = List.length cs /\ r <> [] /\ Forall (plain sep) r /\ skippable (joined sep r) = false) rows ->
  Forall2 (fun r vs => Forall2 (fun f v => stod f = Some v) r vs) rows values ->
  exists cs', read_lines (map (joined sep) rows) (Some sep, cs) = Ok (Some sep, cs') /\ List.length cs' = List.length cs /\
    forall j n d, column_at cs j n d -> column_at cs' j n (d ++ map (fun vs => nth j vs 0%Q) values).
Proof.
  intros sep rows. induction rows as [|r rows IH]; intros cs values O N F V.
  - inversion V; subst. exists cs. split; [reflexivity|]. split; [reflexivity|]. intros j n d C. cbn [map]. now rewrite app_nil_r.
  - inversion V as [|r' vs rows' values' V1 V2]; subst. apply Forall_cons_iff in F. destruct F as ((L & NR & P & S0) & F).
    cbn [map CsvModel.read_lines]. unfold CsvModel.handle. rewrite S0. cbn [fst snd bind].
    assert (SP : split_fields (joined sep r) sep = r).
    { apply C203_round_trip; [exact O|exact NR|]. apply Forall_forall. intros f I0. rewrite Forall_forall in P. apply P, I0. }
    assert (OK : exists cs1, process_line stod (joined sep r) sep cs = Ok cs1).
    { unfold process_line. destruct cs as [|c0 cs0]; [contradiction|]. set (cs := c0 :: cs0) in *. rewrite SP.
      destruct (row_refused r 0 cs) as [K|(_ & k & f & A & B & C)]; [exact K|]. exfalso. destruct C as [C|C].
      - assert (k < List.length r) by (apply nth_error_Some; congruence). lia.
      - rewrite Forall_forall in P. destruct (P f (nth_error_In _ _ A)) as (_ & CL & _). rewrite CL in C.
        clear -V1 A C. revert k A. induction V1 as [|x y l l' H V1 IHV]; intros k A; [destruct k; discriminate|]. destruct k as [|k]; cbn [nth_error] in A; [injection A as ->; congruence|apply (IHV k A)]. }
    destruct OK as (cs1 & E). rewrite E. cbn [bind]. destruct (C204_row _ _ _ _ N E) as (L1 & R).
    destruct (IH cs1 values' O) as (cs' & A & B & C); [destruct cs1; [destruct cs; [contradiction|discriminate]|discriminate]|rewrite L1; exact F|exact V2|].
    exists cs'. split; [exact A|]. split; [congruence|]. intros j n d CA. destruct (R j n d CA) as (new & D & K). specialize (C j n _ D).
    cbn [map]. replace (d ++ nth j vs 0%Q :: map (fun vs0 => nth j vs0 0%Q) values') with ((d ++ new) ++ map (fun vs0 => nth j vs0 0%Q) values'); [exact C|].
    assert (NEW : new = [nth j vs 0%Q]); [|rewrite NEW, <- app_assoc; reflexivity].
    unfold added in K. rewrite SP in K. assert (J : j < List.length r) by (rewrite L; apply nth_error_Some; unfold column_at in CA; congruence).
    destruct (nth_error r j) as [f|] eqn:EF; [|apply nth_error_None in EF; lia]. rewrite Forall_forall in P. destruct (P f (nth_error_In _ _ EF)) as (_ & CL & NE). rewrite CL in K.
    assert (SV : stod f = Some (nth j vs 0%Q)).
    { clear -V1 EF. revert j EF. induction V1 as [|x y l l' H V1 IHV]; intros j EF; [destruct j; discriminate|]. destruct j as [|j]; cbn [nth_error nth] in *; [injection EF as ->; exact H|apply IHV, EF]. }
    destruct f as [|c f]; [contradiction|]. destruct K as (v & K1 & ->). congruence.
Qed.
Theorem C204_table : forall sep names rows values, ordinary sep -> names <> [] ->
  Forall (plain sep) names -> skippable (joined sep names) = false -> strip_bom (joined sep names) = joined sep names -> guess_separator (joined sep names) = Ok sep ->
  Forall (fun r => List.length r = List.length names /\ r <> [] /\ Forall (plain sep) r /\ skippable (joined sep r) = false) rows ->
  Forall2 (fun r vs => Forall2 (fun f v => stod f = Some v) r vs) rows values ->
  exists cs, read_columns (joined sep names :: map (joined sep) rows) = Ok cs /\ List.length cs = List.length names /\
    forall j n, nth_error names j = Some n -> column_at cs j n (map (fun vs => nth j vs 0%Q) values).
Proof.
  intros sep names rows values O N P S0 B G F V.
  set (cs0 := map (fun n => mkColumn n []) names).
  assert (H0 : handle (joined sep names) (None, []) = Ok (Some sep, cs0)).
  { unfold CsvModel.handle. rewrite S0. cbn [fst snd]. rewrite G. cbn [bind process_line]. unfold header.
    rewrite C203_round_trip; [|exact O|exact N|apply Forall_forall; intros f I0; rewrite Forall_forall in P; apply P, I0].
    assert (M : map clean names = names /\ filter nonempty names = names).
    { clear -P. induction P as [|f l (_ & C & NE) P (A & B)]; [split; reflexivity|]. cbn [map filter]. rewrite C, A, B. destruct f; [contradiction|]. split; reflexivity. }
    destruct M as (M1 & M2). rewrite M1, M2. reflexivity. }
  assert (L0 : List.length cs0 = List.length names) by (unfold cs0; apply map_length).
  destruct (rows_table sep rows cs0 values O) as (cs & A & L & C); [unfold cs0; destruct names; [contradiction|discriminate]|rewrite L0; exact F|exact V|].
  exists cs. split; [|split; [congruence|]].
  - unfold CsvModel.read_columns. rewrite B. cbn [CsvModel.read_lines]. rewrite H0. cbn [bind]. rewrite A. cbn [bind snd]. destruct cs; [|reflexivity]. destruct names; [contradiction|]. rewrite L0 in L. discriminate L.
  - intros j n K. specialize (C j n [] ). cbn [app] in C. apply C. unfold column_at, cs0. rewrite nth_error_map, K. reflexivity.
Qed.
End Reader.

(** A number between two commas. *)
Definition digit (t : text) : option Q :=
  match t with [c] => let n := nat_of_ascii c in if (48 <=? n) && (n <=? 57) then Some (inject_Z (Z.of_nat (n - 48))) else None | _ => None end.
(** A column whose name is blank is not counted in the header but is counted in the
    rows: numbers land under the name of another column. *)
Theorem C204_blank_name_refuted : exists names cells cs,
  read_columns digit [joined "," names; joined "," cells] = Ok cs /\
  nth_error names 1 = Some [] /\ nth_error names 2 = Some (T "V") /\ nth_error cells 1 = Some (T "7") /\
  In (mkColumn (T "V") [7%Q]) cs.
Proof. exists [T "t"; []; T "V"], [T "0"; T "7"]. eexists. split; [vm_compute; reflexivity|]. repeat split. right. left. reflexivity. Qed.
(** Two columns of the same length need not be of the same rows: one blank cell in
    each is enough. *)
Theorem C204_rows_kept_refuted : exists ls cs, read_columns digit ls = Ok cs /\
  ls = [T "t,V"; T "0,5"; T ",6"; T "2,"; T "3,8"] /\
  cs = [mkColumn (T "t") [0; 2; 3]%Q; mkColumn (T "V") [5; 6; 8]%Q].
Proof. do 2 eexists. split; [|split; reflexivity]. vm_compute. reflexivity. Qed.
Example C204_witness : read_columns digit (lines (T "t;V(a,b)
# comment
0;5
1;6
")) = Ok [mkColumn (T "t") [0; 1]%Q; mkColumn (T "V(a,b)") [5; 6]%Q] /\
  Forall (plain ";") [T "t"; T "V(a,b)"] /\ guess_separator (joined ";" [T "t"; T "V(a,b)"]) = Ok ";"%char.
Proof. split; [vm_compute; reflexivity|]. split; [|reflexivity]. repeat constructor; discriminate. Qed.
(** The lines of a text, whether or not the last ends with a newline. *)
Theorem C204_lines : forall ls, Forall (fun l => ~ In LF l) ls ->
  lines (flat_map (fun l => l ++ [LF]) ls) = ls /\ (forall l, ~ In LF l -> l <> [] -> lines (flat_map (fun l => l ++ [LF]) ls ++ l) = ls ++ [l]).
Proof.
  assert (G : forall l current rest, ~ In LF l -> lines_go current (l ++ rest) = lines_go (current ++ l) rest).
  { induction l as [|c l IH]; intros current rest N; [now rewrite app_nil_r|]. cbn [app lines_go]. destruct (Ascii.eqb_spec c LF) as [->|E]; [exfalso; apply N; left; reflexivity|]. rewrite IH by (intro K; apply N; right; exact K). now rewrite <- app_assoc. }
  assert (H : forall ls rest, Forall (fun l => ~ In LF l) ls -> lines (flat_map (fun l => l ++ [LF]) ls ++ rest) = ls ++ lines rest).
  { unfold lines. induction ls as [|l ls IH]; intros rest F; [reflexivity|]. apply Forall_cons_iff in F. destruct F as (F1 & F2). cbn [flat_map]. rewrite <- !app_assoc, G by exact F1. cbn [app lines_go]. rewrite Ascii.eqb_refl. f_equal. apply IH, F2. }
  intros ls F. split.
  - rewrite <- (app_nil_r (flat_map _ _)), H by exact F. apply app_nil_r.
  - intros l N NE. rewrite H by exact F. f_equal. unfold lines. rewrite <- (app_nil_r l) at 1. rewrite G by exact N. cbn [app lines_go]. destruct l; [contradiction|reflexivity].
Qed.
(** A file that has no line to read is refused. *)
Theorem C204_no_columns : forall stod ls, Forall (fun l => skippable l = true) ls -> (forall l r, ls = l :: r -> strip_bom l = l) ->
  exists w, read_columns stod ls = Throw w.
Proof.
  intros stod ls F B. unfold read_columns. assert (E : match ls with [] => [] | l :: r => strip_bom l :: r end = ls) by (destruct ls as [|l r]; [reflexivity|]; now rewrite (B l r eq_refl)). rewrite E.
  assert (G : forall st, read_lines stod ls st = Ok st) by (clear -F; induction F as [|l ls L F IH]; intro st; [reflexivity|]; cbn [read_lines]; unfold handle; rewrite L; apply IH).
  rewrite G. eexists. reflexivity.
Qed.
Example C204_lines_witness : blanks (T "  ") /\ solid (T "V(a)") /\ clean (T " V(a) ") = T "V(a)" /\ skippable (T " // x") = true /\ skippable (T "/x") = false.
Proof.
  split; [repeat constructor|]. split; [|repeat split]. split; [intros H; cbn in H; intuition discriminate|]. split.
  - intros c r E. injection E as <- _. split; [cbn; lia|discriminate].
  - intros c r E. change (T "V(a)") with (["V"; "("; "a"]%char ++ [")"%char]) in E. apply app_inj_tail in E. destruct E as (_ & <-). cbn. lia.
Qed.

Print Assumptions C203_lossless.
Print Assumptions C203_fields.
Print Assumptions C203_round_trip.
Print Assumptions C203_count.
Print Assumptions C203_guess.
Print Assumptions C203_open_parenthesis_refuted.
Print Assumptions C204_row.
Print Assumptions C204_refused.
Print Assumptions C204_comments.
Print Assumptions C204_carriage_returns.
Print Assumptions C204_table.
Print Assumptions C204_blank_name_refuted.
Print Assumptions C204_rows_kept_refuted.
Print Assumptions C204_skipped.
Print Assumptions C204_cell.
Print Assumptions C204_padded_quotes_refuted.
Print Assumptions C204_mark.
Print Assumptions C204_lines.
Print Assumptions C204_no_columns.
Print Assumptions C203_cells.
Print Assumptions C203_order.
