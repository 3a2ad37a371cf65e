(** C209: the operating point read from a simulation file. *)
From Coq Require Import List Bool Ascii String QArith Arith Lia.
From Verif Require Import Base CsvModel SignalModel ExcitationModel.
Import ListNotations.
Local Open Scope nat_scope.

Section Excitation.
Context {result : Type}.
Variable finish : Q -> list Q * list Q -> outcome result.
Notation excite := (excite result finish). Notation windings := (windings result finish). Notation operating_point := (operating_point result finish).

(** A figure comes from a column on an axis. *)
Definition comes_from (f : Q) (c axis : column) (x : result) : Prop :=
  exists known w known', extract_waveform f c axis known = Ok (w, known') /\ finish f w = Ok x.
(** The three signals of a winding. *)
Definition slot (k : kind) (e : excitation result) : option result :=
  match k with Current => e_current _ e | Magnetizing => e_magnetizing _ e | Voltage => e_voltage _ e | _ => None end.
Definition slot_name (k : kind) (m : naming) : option text :=
  match k with Current => n_current m | Magnetizing => n_magnetizing m | Voltage => n_voltage m | Time => n_time m | Unknown => None end.
Definition is_signal_kind (k : kind) : Prop := k = Current \/ k = Magnetizing \/ k = Voltage.

Definition fits (k : kind) (w : nat) (t : tagged) : Prop := tkind t = k /\ twinding t = w.
Lemma fits_dec : forall k w t, fits k w t \/ ~ fits k w t.
Proof. intros k w t. unfold fits. destruct (Nat.eq_dec (twinding t) w); [|tauto]. destruct (tkind t), k; (left; split; [reflexivity|assumption]) || (right; intros (A & _); discriminate). Qed.
Lemma take_ok : forall f c axis known x known', take result finish f c axis known = Ok (x, known') -> comes_from f c axis x.
Proof.
  intros f c axis known x known' H. unfold take in H. destruct (extract_waveform f c axis known) as [(w, k)|s|s|] eqn:E; cbn [bind] in H; try discriminate. cbn [fst snd] in H. destruct (finish f w) as [r|s|s|] eqn:F; cbn [bind] in H; try discriminate.
  injection H as <- <-. exists known, w, k. auto.
Qed.
Lemma excite_spec : forall f w axis cs e known e' known', excite f w axis cs e known = Ok (e', known') -> forall k, is_signal_kind k ->
  ((forall t, In t cs -> ~ fits k w t) /\ slot k e' = slot k e) \/
  (exists t x, In t cs /\ fits k w t /\ slot k e' = Some x /\ comes_from f (tcol t) axis x).
Proof.
  intros f w axis. induction cs as [|c cs IH]; intros e known e' known' H k K; cbn [ExcitationModel.excite] in H.
  - injection H as <- <-. left. split; [intros t []|reflexivity].
  - assert (SKIP : forall e0 known0, excite f w axis cs e0 known0 = Ok (e', known') -> ~ fits k w c -> slot k e0 = slot k e ->
      ((forall t, In t (c :: cs) -> ~ fits k w t) /\ slot k e' = slot k e) \/ (exists t x, In t (c :: cs) /\ fits k w t /\ slot k e' = Some x /\ comes_from f (tcol t) axis x)).
    { intros e0 known0 H0 N S. destruct (IH _ _ _ _ H0 k K) as [(A & B)|(t & x & A & B)].
      - left. split; [intros t [<-|I0]; [exact N|apply A, I0]|]. now rewrite B.
      - right. exists t, x. split; [right; exact A|exact B]. }
    assert (HIT : forall e0 known0 x, excite f w axis cs e0 known0 = Ok (e', known') -> fits k w c -> slot k e0 = Some x -> comes_from f (tcol c) axis x ->
      (exists t x, In t (c :: cs) /\ fits k w t /\ slot k e' = Some x /\ comes_from f (tcol t) axis x)).
    { intros e0 known0 x H0 F S C. destruct (IH _ _ _ _ H0 k K) as [(A & B)|(t & y & A & B)].
      - exists c, x. split; [left; reflexivity|]. split; [exact F|]. split; [now rewrite B|exact C].
      - exists t, y. split; [right; exact A|exact B]. }
    destruct (Nat.eqb_spec (twinding c) w) as [W|W]; [|apply (SKIP _ _ H); [intros (_ & Z); contradiction|reflexivity]].
    destruct (tkind c) eqn:T.
    + apply (SKIP _ _ H); [intros (Z & _); rewrite T in Z; destruct K as [->|[->| ->]]; discriminate|reflexivity].
    + destruct (take result finish f (tcol c) axis known) as [(x, k1)|s|s|] eqn:E; cbn [bind] in H; try discriminate. cbn [fst snd] in H. pose proof (take_ok _ _ _ _ _ _ E) as C.
      destruct (fits_dec k w c) as [F|F].
      * right. assert (k = Voltage) by (destruct F as (F & _); congruence). subst k. apply (HIT _ _ x H F); [reflexivity|exact C].
      * apply (SKIP _ _ H F). destruct K as [->|[->| ->]]; try reflexivity. exfalso. apply F. split; assumption.
    + destruct (take result finish f (tcol c) axis known) as [(x, k1)|s|s|] eqn:E; cbn [bind] in H; try discriminate. cbn [fst snd] in H. pose proof (take_ok _ _ _ _ _ _ E) as C.
      destruct (fits_dec k w c) as [F|F].
      * right. assert (k = Current) by (destruct F as (F & _); congruence). subst k. apply (HIT _ _ x H F); [reflexivity|exact C].
      * apply (SKIP _ _ H F). destruct K as [->|[->| ->]]; try reflexivity. exfalso. apply F. split; assumption.
    + destruct (take result finish f (tcol c) axis known) as [(x, k1)|s|s|] eqn:E; cbn [bind] in H; try discriminate. cbn [fst snd] in H. pose proof (take_ok _ _ _ _ _ _ E) as C.
      destruct (fits_dec k w c) as [F|F].
      * right. assert (k = Magnetizing) by (destruct F as (F & _); congruence). subst k. apply (HIT _ _ x H F); [reflexivity|exact C].
      * apply (SKIP _ _ H F). destruct K as [->|[->| ->]]; try reflexivity. exfalso. apply F. split; assumption.
    + apply (SKIP _ _ H); [intros (Z & _); rewrite T in Z; destruct K as [->|[->| ->]]; discriminate|reflexivity].
Qed.
Lemma windings_spec : forall f axes cs n w known es, windings f axes cs w n known = Ok es ->
  List.length es = n /\ forall i e, nth_error es i = Some e -> exists known known', excite f (w + i) (axes (w + i)) cs (no_excitation _) known = Ok (e, known').
Proof.
  intros f axes cs. induction n as [|n IH]; intros w known es H; cbn [ExcitationModel.windings] in H.
  - injection H as <-. split; [reflexivity|]. intros i e K. destruct i; discriminate.
  - destruct (excite f w (axes w) cs (no_excitation result) known) as [(e0, k0)|s|s|] eqn:E; cbn [bind] in H; try discriminate. cbn [fst snd] in H.
    destruct (windings f axes cs (S w) n k0) as [rest|s|s|] eqn:R; cbn [bind] in H; try discriminate. injection H as <-. destruct (IH _ _ _ R) as (A & B). split; [cbn; now rewrite A|].
    intros [|i] e K; cbn [nth_error] in K.
    + injection K as <-. rewrite Nat.add_0_r. eauto.
    + rewrite Nat.add_succ_r. apply (B i e K).
Qed.
Lemma drop_spec' : forall es : list (excitation result), exists t, es = t ++ drop_silent _ es /\ Forall (fun e => silent _ e = true) t /\ (es <> [] -> drop_silent _ es <> []) /\
  (forall e e' r, drop_silent _ es = e :: e' :: r -> silent _ e = false).
Proof.
  induction es as [|e es (t & A & B & C & D)]; [exists []; repeat split; auto; discriminate|]. cbn [drop_silent]. destruct es as [|e' es].
  - exists []. repeat split; auto; discriminate.
  - destruct (silent result e) eqn:S.
    + exists (e :: t). split; [cbn [app]; f_equal; exact A|]. split; [constructor; assumption|]. split; [intros _; apply C; discriminate|exact D].
    + exists []. repeat split; auto. intros a b r E. injection E as <- _. exact S.
Qed.
Lemma tail_spec : forall es : list (excitation result), exists t, es = without_tail _ es ++ t /\ Forall (fun e => silent _ e = true) t /\ (es <> [] -> without_tail _ es <> []) /\
  (forall e r, without_tail _ es = r ++ [e] -> r <> [] -> silent _ e = false).
Proof.
  intro es. unfold without_tail. destruct (drop_spec' (rev es)) as (t & A & B & C & D). exists (rev t). split; [|split; [|split]].
  - rewrite <- rev_app_distr, <- A, rev_involutive. reflexivity.
  - apply Forall_rev, B.
  - intros N Z. apply C; [intro Y; apply N; rewrite <- (rev_involutive es), Y; reflexivity|]. apply (f_equal (@rev _)) in Z. now rewrite rev_involutive in Z.
  - intros e r E N. apply (f_equal (@rev _)) in E. rewrite rev_involutive, rev_app_distr in E. cbn [rev app] in E. destruct (rev r) as [|e' r'] eqn:R; [exfalso; apply N; rewrite <- (rev_involutive r), R; reflexivity|]. apply (D e e' r' E).
Qed.
Lemma text_eqb_eq : forall a b, text_eqb a b = true <-> a = b.
Proof.
  induction a as [|x a IH]; intros [|y b]; cbn [text_eqb]; try (split; [discriminate|discriminate]); [split; reflexivity|]. rewrite andb_true_iff, Ascii.eqb_eq, IH. split; [intros (-> & ->); reflexivity|intro E; injection E; auto].
Qed.
Lemma named_in : forall k w n cs t, In t (named k w n cs) <-> In (tcol t) cs /\ n = Some (cname (tcol t)) /\ fits k w t.
Proof.
  intros k w [n|] cs t; cbn [named]; [|split; [intros []|intros (_ & E & _); discriminate]]. rewrite in_map_iff. split.
  - intros (c & <- & I0). apply filter_In in I0. destruct I0 as (I0 & E). apply text_eqb_eq in E. cbn [tcol]. split; [exact I0|]. split; [congruence|split; reflexivity].
  - intros (I0 & E & (F1 & F2)). injection E as ->. exists (tcol t). split; [destruct t; cbn in *; congruence|]. apply filter_In. split; [exact I0|]. apply text_eqb_eq. reflexivity.
Qed.
Lemma assign_in : forall ms w0 cs t, In t (assign w0 ms cs) <->
  exists i m, nth_error ms i = Some m /\ twinding t = w0 + i /\ In (tcol t) cs /\ tkind t <> Unknown /\ slot_name (tkind t) m = Some (cname (tcol t)).
Proof.
  induction ms as [|m ms IH]; intros w0 cs t; cbn [assign].
  - split; [intros []|]. intros (i & m & E & _). destruct i; discriminate.
  - rewrite !in_app_iff, !named_in, IH. unfold fits. split.
    + intros [H|[H|[H|[H|H]]]].
      1-4: destruct H as (A & B & C & D); exists 0, m; rewrite C; split; [reflexivity|]; split; [lia|]; split; [exact A|]; split; [discriminate|exact B].
      destruct H as (i & m' & A & B & C). exists (S i), m'. split; [exact A|]. split; [lia|exact C].
    + intros (i & m' & A & B & C & D & E). destruct i as [|i]; cbn [nth_error] in A.
      * injection A as <-. rewrite Nat.add_0_r in B. destruct (tkind t) eqn:K; cbn [slot_name] in E; [right; right; left|right; right; right; left|left|right; left|contradiction]; auto.
      * right; right; right; right. exists i, m'. split; [exact A|]. split; [lia|auto].
Qed.
Lemma time_for_spec : forall w cs d, (time_for w cs d = d /\ forall t, In t cs -> ~ fits Time w t) \/ (exists t, In t cs /\ fits Time w t /\ time_for w cs d = tcol t).
Proof.
  intros w. induction cs as [|c cs IH]; intro d; cbn [time_for]; [left; split; [reflexivity|intros t []]|]. destruct (kind_eqb (tkind c) Time && Nat.eqb (twinding c) w) eqn:E.
  - apply andb_true_iff in E. destruct E as (E1 & E2). apply Nat.eqb_eq in E2. assert (F : fits Time w c) by (split; [destruct (tkind c); discriminate || reflexivity|exact E2]). right.
    destruct (IH (tcol c)) as [(A & B)|(t & A & B)]; [exists c; split; [left; reflexivity|split; assumption]|exists t; split; [right; exact A|exact B]].
  - destruct (IH d) as [(A & B)|(t & A & B)].
    + left. split; [exact A|]. intros t [<-|I0]; [|apply B, I0]. intros (F1 & F2). rewrite F1, F2, Nat.eqb_refl in E. discriminate.
    + right. exists t. split; [right; exact A|exact B].
Qed.

(** The column a name stands for in a file. *)
Definition stands_for (cs : list column) (n : option text) (c : column) : Prop := In c cs /\ n = Some (cname c).
(** The axis of a winding: a column that bears the name given for its time, or the time
    of the file when none does. *)
Definition axis_of (cs : list column) (time : column) (m : naming) (axis : column) : Prop :=
  stands_for cs (n_time m) axis \/ (axis = time /\ forall c, ~ stands_for cs (n_time m) c).
(** With the columns named, every winding that is reported has the signals named for it
    and no others, each from a column of that name on the axis named for that winding;
    only windings at the end for which no column was found are left out. *)
Theorem C209_named : forall f number ms time cs known ts es, operating_point f number ms time cs known = Ok (ts, es) ->
  List.length es <= number /\ (number <> 0 -> es <> []) /\
  (forall w e m, nth_error es w = Some e -> nth_error ms w = Some m ->
     exists axis, axis_of cs time m axis /\
     forall k, is_signal_kind k ->
       match slot k e with
       | Some x => exists c, stands_for cs (slot_name k m) c /\ comes_from f c axis x
       | None => forall c, ~ stands_for cs (slot_name k m) c
       end) /\
  (forall w m k c, List.length es <= w < number -> nth_error ms w = Some m -> is_signal_kind k -> ~ stands_for cs (slot_name k m) c) /\
  (forall w e k, nth_error es w = Some e -> List.length ms <= w -> slot k e = None).
Proof.
  intros f number ms time cs known ts es H. unfold ExcitationModel.operating_point in H. set (tg := assign 0 ms cs) in *.
  destruct (windings f (fun w => time_for w tg time) tg 0 number known) as [full|s|s|] eqn:W; cbn [bind] in H; try discriminate. injection H as H1 H2.
  destruct (windings_spec _ _ _ _ _ _ _ W) as (L & E). destruct (tail_spec full) as (t & A & B & C & D). rewrite H2 in A, C, D.
  assert (LE : List.length es + List.length t = number) by (rewrite <- L, A, app_length; reflexivity).
  assert (NTH : forall w e, nth_error es w = Some e -> nth_error full w = Some e).
  { intros w e K. rewrite A, nth_error_app1; [exact K|]. apply nth_error_Some. congruence. }
  assert (SLOT : forall w e m, nth_error full w = Some e -> nth_error ms w = Some m -> forall k, is_signal_kind k ->
    match slot k e with Some x => exists c, stands_for cs (slot_name k m) c /\ comes_from f c (time_for w tg time) x | None => forall c, ~ stands_for cs (slot_name k m) c end).
  { intros w e m K M k SK. destruct (E w e K) as (kn & kn' & X). cbn [Nat.add] in X. destruct (excite_spec _ _ _ _ _ _ _ _ X k SK) as [(N & S)|(t0 & x & I0 & F & S & CF)].
    - replace (slot k (no_excitation result)) with (@None result) in S by (destruct k; reflexivity). rewrite S. intros c (IC & NM). apply (N (mkTagged c k w)); [|split; reflexivity].
      apply assign_in. exists w, m. cbn [twinding tcol tkind]. split; [exact M|]. split; [lia|]. split; [exact IC|]. split; [|exact NM]. destruct SK as [->|[->| ->]]; discriminate.
    - rewrite S. exists (tcol t0). split; [|exact CF]. apply assign_in in I0. destruct I0 as (i & m' & M' & TW & IC & _ & NM). destruct F as (F1 & F2). assert (i = w) by lia. subst i. rewrite M in M'. injection M' as <-. rewrite F1 in NM. split; assumption. }
  split; [lia|]. split; [intro N; apply C; intro Z; rewrite Z in L; cbn in L; congruence|]. split; [|split].
  - intros w e m K M. exists (time_for w tg time). split; [|apply (SLOT w e m (NTH w e K) M)].
    destruct (time_for_spec w tg time) as [(T1 & T2)|(t0 & I0 & (F1 & F2) & ->)].
    + right. split; [exact T1|]. intros c (IC & NM). apply (T2 (mkTagged c Time w)); [|split; reflexivity]. apply assign_in. exists w, m. cbn [twinding tcol tkind]. split; [exact M|]. split; [lia|]. split; [exact IC|]. split; [discriminate|exact NM].
    + left. apply assign_in in I0. destruct I0 as (i & m' & M' & TW & IC & _ & NM). assert (i = w) by lia. subst i. rewrite M in M'. injection M' as <-. rewrite F1 in NM. split; assumption.
  - intros w m k c R M SK. destruct (nth_error full w) as [e|] eqn:K; [|apply nth_error_None in K; lia]. specialize (SLOT w e m K M k SK).
    assert (SI : silent _ e = true). { rewrite A, nth_error_app2 in K by lia. rewrite Forall_forall in B. apply B, (nth_error_In _ _ K). }
    unfold silent in SI. destruct e as [[?|] [?|] [?|]]; try discriminate. destruct SK as [->|[->| ->]]; apply SLOT.
  - intros w e k K M. destruct (E w e (NTH w e K)) as (kn & kn' & X). cbn [Nat.add] in X.
    assert (SKD : is_signal_kind k \/ slot k e = None) by (unfold is_signal_kind; destruct k; auto). destruct SKD as [SK|SK]; [|exact SK].
    destruct (excite_spec _ _ _ _ _ _ _ _ X k SK) as [(_ & S)|(t0 & x & I0 & (F1 & F2) & _)]; [rewrite S; destruct k; reflexivity|]. exfalso. apply assign_in in I0. destruct I0 as (i & m & M' & TW & _). assert (i < List.length ms) by (apply nth_error_Some; congruence). lia.
Qed.
(** No winding at the end is silent, unless it is the only one. *)
Theorem C209_tail : forall f number ms time cs known ts es e r, operating_point f number ms time cs known = Ok (ts, es) -> es = r ++ [e] -> r <> [] ->
  exists k, is_signal_kind k /\ slot k e <> None.
Proof.
  intros f number ms time cs known ts es e r H E N. unfold ExcitationModel.operating_point in H. destruct (windings _ _ _ _ _ _) as [full|s|s|]; cbn [bind] in H; try discriminate. injection H as H1 H2.
  destruct (tail_spec full) as (t & _ & _ & _ & D). rewrite H2 in D. specialize (D e r E N). unfold silent in D. destruct e as [[a|] [b|] [c|]]; try discriminate; cbn.
  1-4: exists Current; split; [left; reflexivity|discriminate].
  1-2: exists Magnetizing; split; [right; left; reflexivity|discriminate].
  exists Voltage; split; [right; right; reflexivity|discriminate].
Qed.
(** Full claim: naming columns again starts from the file.  False: the object keeps only
    the columns named before, so others are not found the second time. *)
Theorem C209_again_refuted : forall f number ms time cs known ts es m k c, operating_point f number ms time cs known = Ok (ts, es) ->
  stands_for (map tcol ts) (slot_name k m) c -> exists m' k', In m' ms /\ slot_name k' m' = slot_name k m.
Proof.
  intros f number ms time cs known ts es m k c H (I0 & N). unfold ExcitationModel.operating_point in H. destruct (windings _ _ _ _ _ _) as [full|s|s|]; cbn [bind] in H; try discriminate. injection H as H1 H2. subst ts.
  apply in_map_iff in I0. destruct I0 as (t & <- & I0). apply assign_in in I0. destruct I0 as (i & m' & M & _ & _ & _ & NM). exists m', (tkind t). split; [apply (nth_error_In _ _ M)|congruence].
Qed.
(** ** One window *)
(** The samples of a column and its axis from position [s] to position [e], times from
    the first of them on. *)
Definition cut_at (w : nat * nat) (axis c : column) (wf : list Q * list Q) : Prop :=
  let p := collapse (cdata axis) (cdata c) in
  snd wf = firstn (snd w - fst w) (skipn (fst w) (map snd p)) /\
  fst wf = map (fun t => t - nth (fst w) (map fst p) 0)%Q (firstn (snd w - fst w) (skipn (fst w) (map fst p))).
Definition extends (a b : cache) : Prop := forall n w, window_of n a = Some w -> window_of n b = Some w.
Definition shared (kn : cache) (f : Q) (c axis : column) (x : result) : Prop :=
  exists w wf, window_of (cname axis) kn = Some w /\ cut_at w axis c wf /\ finish f wf = Ok x.
Lemma shared_mono : forall a b f c axis x, extends a b -> shared a f c axis x -> shared b f c axis x.
Proof. intros a b f c axis x E (w & wf & A & B). exists w, wf. split; [apply E, A|exact B]. Qed.
Lemma extract_window : forall f c axis kn wf kn', extract_waveform f c axis kn = Ok (wf, kn') ->
  extends kn kn' /\ exists w, window_of (cname axis) kn' = Some w /\ cut_at w axis c wf.
Proof.
  intros f c axis kn wf kn' H. unfold extract_waveform in H. destruct (negb _); [discriminate|]. cbv zeta in H. unfold cut_at. cbv zeta. set (p := collapse (cdata axis) (cdata c)) in *.
  unfold get_one_period in H. destruct (negb _); [discriminate|]. destruct (map fst p) as [|t0 ts0] eqn:ET; [discriminate|]. rewrite <- ET in *.
  assert (FIN : forall w kn1, (let '((s, e), c') := (w, kn1) in
      if (List.length (map snd p) <? e) || (e <=? s) then Throw "InvalidInput: the window does not fit the waveform"
      else Ok ((map (fun t => t - nth s (map fst p) 0)%Q (slice s e (map fst p)), slice s e (map snd p)), c')) = Ok (wf, kn') ->
      kn1 = kn' /\ cut_at w axis c wf).
  { intros (s, e) kn1 K. cbv zeta in K. destruct (_ || _)%bool; [discriminate|]. injection K as <- <-. split; [reflexivity|]. split; reflexivity. }
  destruct (window_of (cname axis) kn) as [w|] eqn:W; cbn [bind] in H.
  - destruct (FIN _ _ H) as (<- & C). split; [intros n w' X; exact X|]. exists w. split; [exact W|exact C].
  - destruct (find_window _ _ _ _) as [w|s|s|]; cbn [bind] in H; try discriminate. destruct (FIN _ _ H) as (<- & C).
    assert (R : text_eqb (cname axis) (cname axis) = true) by (apply text_eqb_eq; reflexivity). split.
    + intros n w' X. cbn [window_of]. destruct (text_eqb n (cname axis)) eqn:Q0; [|exact X]. apply text_eqb_eq in Q0. subst n. congruence.
    + exists w. cbn [window_of]. rewrite R. split; [reflexivity|exact C].
Qed.
Lemma take_window : forall f c axis kn x kn', take result finish f c axis kn = Ok (x, kn') -> extends kn kn' /\ shared kn' f c axis x.
Proof.
  intros f c axis kn x kn' H. unfold take in H. destruct (extract_waveform f c axis kn) as [(wf, k)|s|s|] eqn:E; cbn [bind] in H; try discriminate. cbn [fst snd] in H.
  destruct (finish f wf) as [r|s|s|] eqn:F; cbn [bind] in H; try discriminate. injection H as <- <-. destruct (extract_window _ _ _ _ _ _ E) as (A & w & B & C).
  split; [exact A|]. exists w, wf. auto.
Qed.
Lemma excite_window : forall f w axis cs e kn e' kn', excite f w axis cs e kn = Ok (e', kn') -> extends kn kn' /\
  forall k x, slot k e' = Some x -> slot k e = Some x \/ exists t, In t cs /\ fits k w t /\ shared kn' f (tcol t) axis x.
Proof.
  intros f w axis. induction cs as [|c cs IH]; intros e kn e' kn' H; cbn [ExcitationModel.excite] in H.
  - injection H as <- <-. split; [intros n v X; exact X|]. auto.
  - assert (SKIP : excite f w axis cs e kn = Ok (e', kn') -> extends kn kn' /\
      forall k x, slot k e' = Some x -> slot k e = Some x \/ exists t, In t (c :: cs) /\ fits k w t /\ shared kn' f (tcol t) axis x).
    { intro H0. destruct (IH _ _ _ _ H0) as (A & B). split; [exact A|]. intros k x S. destruct (B k x S) as [X|(t & X & Y)]; [auto|right; exists t; split; [right; exact X|exact Y]]. }
    assert (STEP : forall y kn1 e1, take result finish f (tcol c) axis kn = Ok (y, kn1) -> excite f w axis cs e1 kn1 = Ok (e', kn') ->
      twinding c = w -> (forall k, slot k e1 = slot k e \/ (tkind c = k /\ slot k e1 = Some y)) -> extends kn kn' /\
      forall k x, slot k e' = Some x -> slot k e = Some x \/ exists t, In t (c :: cs) /\ fits k w t /\ shared kn' f (tcol t) axis x).
    { intros y kn1 e1 T H0 W U. destruct (take_window _ _ _ _ _ _ T) as (A1 & A2). destruct (IH _ _ _ _ H0) as (B1 & B2). split; [intros n v X; apply B1, A1, X|].
      intros k x S. destruct (B2 k x S) as [X|(t & X & Y)]; [|right; exists t; split; [right; exact X|exact Y]].
      destruct (U k) as [V|(V1 & V2)]; [left; congruence|]. right. exists c. split; [left; reflexivity|]. split; [split; assumption|].
      rewrite V2 in X. injection X as <-. apply (shared_mono kn1); assumption. }
    destruct (Nat.eqb_spec (twinding c) w) as [W|W]; [|apply SKIP, H].
    destruct (tkind c) eqn:T; try (apply SKIP, H);
      (destruct (take result finish f (tcol c) axis kn) as [(y, kn1)|s|s|] eqn:E; cbn [bind] in H; try discriminate; cbn [fst snd] in H;
       eapply STEP; [reflexivity|exact H|exact W|]; intro k; destruct k; cbn [slot e_current e_magnetizing e_voltage]; auto).
Qed.
Lemma windings_window : forall f axes cs n w kn es, windings f axes cs w n kn = Ok es -> exists kf, extends kn kf /\
  forall i e k x, nth_error es i = Some e -> slot k e = Some x -> exists t, In t cs /\ fits k (w + i) t /\ shared kf f (tcol t) (axes (w + i)) x.
Proof.
  intros f axes cs. induction n as [|n IH]; intros w kn es H; cbn [ExcitationModel.windings] in H.
  - injection H as <-. exists kn. split; [intros m v X; exact X|]. intros i e k x K. destruct i; discriminate.
  - destruct (excite f w (axes w) cs (no_excitation result) kn) as [(e0, k0)|s|s|] eqn:E; cbn [bind] in H; try discriminate. cbn [fst snd] in H.
    destruct (windings f axes cs (S w) n k0) as [rest|s|s|] eqn:R; cbn [bind] in H; try discriminate. injection H as <-.
    destruct (IH _ _ _ R) as (kf & A & B). destruct (excite_window _ _ _ _ _ _ _ _ E) as (C & D). exists kf. split; [intros m v X; apply A, C, X|].
    intros [|i] e k x K SL; cbn [nth_error] in K.
    + injection K as <-. rewrite Nat.add_0_r. destruct (D k x SL) as [X|(t & X & Y & Z)]; [destruct k; discriminate|]. exists t. split; [exact X|]. split; [exact Y|]. apply (shared_mono k0); assumption.
    + rewrite Nat.add_succ_r. apply (B i e k x K SL).
Qed.
(** All the signals on one axis, of whatever winding, are cut at the same positions. *)
Theorem C209_one_window : forall f number ms time cs known ts es, operating_point f number ms time cs known = Ok (ts, es) ->
  exists place : text -> nat * nat, forall w e m k x, nth_error es w = Some e -> nth_error ms w = Some m -> slot k e = Some x ->
    exists axis c wf, axis_of cs time m axis /\ stands_for cs (slot_name k m) c /\ cut_at (place (cname axis)) axis c wf /\ finish f wf = Ok x.
Proof.
  intros f number ms time cs known ts es H. unfold ExcitationModel.operating_point in H. set (tg := assign 0 ms cs) in *.
  destruct (windings f (fun w => time_for w tg time) tg 0 number known) as [full|s|s|] eqn:W; cbn [bind] in H; try discriminate. injection H as H1 H2.
  destruct (windings_window _ _ _ _ _ _ _ W) as (kf & _ & B). destruct (tail_spec full) as (t & A & _). rewrite H2 in A.
  exists (fun n => match window_of n kf with Some w => w | None => (0, 0) end). intros w e m k x K M SL.
  assert (NTH : nth_error full w = Some e) by (rewrite A, nth_error_app1; [exact K|apply nth_error_Some; congruence]).
  destruct (B w e k x NTH SL) as (t0 & I0 & (F1 & F2) & (wd & wf & W1 & W2 & W3)). cbn [Nat.add] in *. exists (time_for w tg time), (tcol t0), wf.
  split; [|split; [|split; [rewrite W1; exact W2|exact W3]]].
  - destruct (time_for_spec w tg time) as [(T1 & T2)|(t1 & I1 & (G1 & G2) & ->)].
    + right. split; [exact T1|]. intros c (IC & NM). apply (T2 (mkTagged c Time w)); [|split; reflexivity]. apply assign_in. exists w, m. cbn [twinding tcol tkind]. split; [exact M|]. split; [lia|]. split; [exact IC|]. split; [discriminate|exact NM].
    + left. apply assign_in in I1. destruct I1 as (i & m' & M' & TW & IC & _ & NM). assert (i = w) by lia. subst i. rewrite M in M'. injection M' as <-. rewrite G1 in NM. split; assumption.
  - apply assign_in in I0. destruct I0 as (i & m' & M' & TW & IC & _ & NM). assert (i = w) by lia. subst i. rewrite M in M'. injection M' as <-. rewrite F1 in NM. split; assumption.
Qed.
End Excitation.

Definition N1 (s : string) : option text := Some (list_ascii_of_string s).
Definition Col (s : string) (d : list Q) : column := mkColumn (list_ascii_of_string s) d.
(** Two acquisitions side by side, each with its time; a third winding is asked for and
    left out. *)
Example C209_witness : exists ts, operating_point _ (fun _ w => Ok w) 1 3
    [mkNaming (N1 "I1") None (N1 "t1") None; mkNaming (N1 "I2") None (N1 "t2") None] (Col "t1" [0; 1]%Q)
    [Col "t1" [0; 1]; Col "I1" [5; 6]; Col "t2" [0; 1; 2]; Col "I2" [1; - 1; 2]]%Q [] =
  Ok (ts, [mkExcitation _ (Some ([0; 1], [5; 6])) None None; mkExcitation _ (Some ([0; 1], [1; - 1])) None None]%Q).
Proof. eexists. vm_compute. reflexivity. Qed.
(** Full claim: a name that no column bears is an error.  False: the signal is left
    out. *)
Theorem C209_unknown_name_refuted : exists ts, operating_point _ (fun _ w => Ok w) 1 1
    [mkNaming (N1 "I1") None (N1 "no such time") (N1 "no such voltage")] (Col "t1" [0; 1]%Q)
    [Col "t1" [0; 1]; Col "I1" [5; 6]]%Q [] =
  Ok (ts, [mkExcitation _ (Some ([0; 1], [5; 6])%Q) None None]).
Proof. eexists. vm_compute. reflexivity. Qed.
Print Assumptions C209_named.
Print Assumptions C209_tail.
Print Assumptions C209_again_refuted.
Print Assumptions C209_unknown_name_refuted.
Print Assumptions C209_one_window.
