(** C20, C22, C23, C36 (catalogs), C44 and C50-C54: the catalogs, freezing them and
    replacing them by libraries. *)
From Coq Require Import List String Ascii Bool Arith ZArith QArith Lia.
From Verif Require Import Base TextModel StrMap SettingsModel SettingsProperties CatalogModel CatalogProofs.
Import ListNotations.
Open Scope nat_scope.
Open Scope string_scope.

(** * Vocabulary *)
(** What can be seen of the shared data. *)
Definition same_data (p q : process) : Prop :=
  cats (here q) = cats (here p) /\ magnetics (here q) = magnetics (here p).
Definition is_frozen (p : process) : Prop := frozen (here p) = true.
Definition unfrozen (p : process) : process :=
  {| here := set_frozen false (here p); scopes := scopes p; active_count := active_count p |}.
Definition throws {A} (o : outcome A) : Prop := exists e, o = Throw e.
(** Neither lifting the freeze, nor evicting from the magnetics cache, nor ending a
    library scope. *)
Definition ordinary (op : api) : Prop :=
  lifts_freeze op = false /\ evicts op = false /\ ends_scope op = false.
Definition named_entry {T} (n : string) (v : T) (o : option (smap T)) : Prop :=
  exists m, o = Some m /\ sorted m /\ In (n, v) m.
Definition first_named (n : string) (c : core) (l : list core) : Prop :=
  exists before behind, l = app before (c :: behind) /\ co_name c = Some n /\
    Forall (fun c' => co_name c' <> Some n) before.
Definition library_ok (l : library) : Prop :=
  lib_empty l = false.

(** * C20 *)
Theorem C20_nothing_changes_while_frozen : forall files supported h p,
  is_frozen p -> Forall ordinary h ->
  same_data p (after files supported h p) /\ is_frozen (after files supported h p).
Proof.
  intros files supported h. unfold after. induction h as [|op h IH]; intros p Z F; simpl.
  - repeat split. exact Z.
  - apply Forall_cons_iff in F as [(L & E & S) F].
    destruct (run_frozen files supported op p L E S Z) as (A & B & C).
    destruct (IH (fst (run files supported op p))) as [[A' B'] C'].
    + unfold is_frozen. now rewrite C.
    + exact F.
    + split; [|exact C']. unfold same_data. split; congruence.
Qed.

Definition refuses {A} (m : call A) : Prop := forall w, frozen w = true ->
  throws (snd (m w)) \/
  (cats (fst (m (set_frozen false w))) = cats w /\ magnetics (fst (m (set_frozen false w))) = magnetics w).
Lemma refuses_guard {A} (f : unit -> call A) : refuses (seq guard f).
Proof. intros w Z. left. rewrite guard_frozen by exact Z. eexists; reflexivity. Qed.
Lemma refuses_plain {A} (m : call A) : refuses m -> refuses (plain m).
Proof.
  intros M w Z. destruct (M w Z) as [(e & E)|[C D]].
  - left. exists e. unfold plain, seq. destruct (m w) as [w' o]. cbn [snd] in E. now subst.
  - right. unfold plain, seq. now destruct (m (set_frozen false w)) as [w' [a| | |]].
Qed.
Lemma refuses_lookup {A B} (g : catalogs -> list B) (f : unit -> call unit) (k : unit -> call A) :
  (forall u w, cats (fst (k u w)) = cats w /\ magnetics (fst (k u w)) = magnetics w) ->
  refuses (seq (when_empty g (seq guard f)) k).
Proof.
  intros K w Z. unfold when_empty, seq at 1 3 5. cbn [set_frozen cats].
  destruct (g (cats w)).
  - left. rewrite guard_frozen by exact Z. eexists; reflexivity.
  - right. destruct (K tt (set_frozen false w)) as [C D]. rewrite C, D. now simpl.
Qed.
Lemma refuses_same {A} (m : call A) :
  (forall w, cats (fst (m w)) = cats w /\ magnetics (fst (m w)) = magnetics w) -> refuses m.
Proof. intros M w Z. right. destruct (M (set_frozen false w)) as [C D]. now rewrite C, D. Qed.
Lemma find_in_same {T} (g : catalogs -> smap T) n m w :
  (forall w, cats (fst (m w)) = cats w /\ magnetics (fst (m w)) = magnetics w) ->
  cats (fst (find_in g n m w)) = cats w /\ magnetics (fst (find_in g n m w)) = magnetics w.
Proof. intros M. unfold find_in. destruct (find n (g (cats w))); [split; reflexivity|apply M]. Qed.
Lemma act_refuses files supported op : evicts op = false -> refuses (act files supported op).
Proof.
  intros E. destruct op; try discriminate; cbn [act];
    try apply refuses_guard; try (apply refuses_same; intros w; split; reflexivity).
  - apply refuses_plain, refuses_lookup. intros _ w. destruct (List.find _ _); split; reflexivity.
  - apply refuses_plain, refuses_lookup. intros _ w. destruct (find _ _); [split; reflexivity|].
    destruct (List.find _ _); split; reflexivity.
  - apply refuses_plain, refuses_lookup. intros _ w. split; reflexivity.
  - apply refuses_plain. intros w Z.
    assert (R : refuses (try_find_shape files supported n))
      by (apply refuses_lookup; intros; split; reflexivity).
    destruct (R w Z) as [(e & Q)|[C D]].
    + left. exists e. unfold find_shape, seq.
      destruct (try_find_shape files supported n w) as [w' o]. cbn [snd] in Q. now subst.
    + right. unfold find_shape, seq.
      destruct (try_find_shape files supported n (set_frozen false w)) as [w' [[v|]| | |]]; now split.
  - apply refuses_plain, refuses_lookup. intros _ w. apply find_in_same. now split.
  - apply refuses_plain, refuses_lookup. intros _ w. apply find_in_same.
    intros w'. destruct (existsb _ _); split; reflexivity.
  - apply refuses_plain, refuses_lookup. intros _ w. apply find_in_same. now split.
  - apply refuses_plain, refuses_lookup. intros _ w. apply find_in_same. now split.
  - apply refuses_plain, refuses_lookup. intros _ w. cbv zeta. destruct (memo_find _ _ _); split; reflexivity.
  - apply refuses_plain, refuses_same. intros w. unfold mag_read. destruct (find _ _); split; reflexivity.
  - intros w Z. rewrite !settings_reset_eq. cbv zeta. cbn [set_frozen settings].
    destruct (reset_drops_catalogs (settings w)).
    + left. exists "frozen". unfold seq. unfold clear_cores. rewrite guard_frozen by exact Z. reflexivity.
    + right. split; reflexivity.
  - apply refuses_same. intros w. unfold settings_set. destruct (set n v (settings w)); split; reflexivity.
Qed.
(** A call that would change the data if they were not frozen is refused with an
    exception. *)
Theorem C20_changes_are_refused : forall files supported op p,
  is_frozen p -> evicts op = false -> ends_scope op = false ->
  ~ same_data p (fst (run files supported op (unfrozen p))) ->
  throws (snd (run files supported op p)).
Proof.
  intros files supported op p Z E S N.
  pose proof (act_refuses files supported op E (here p) Z) as R.
  destruct op; try discriminate; cbn [run] in *;
    try (cbn [unfrozen here scopes active_count] in N;
         destruct (act files supported _ (here p)) as [w o], (act files supported _ (set_frozen false (here p))) as [w' o'];
         cbn [fst snd] in *; destruct R as [R|R]; [exact R|exfalso; apply N; exact R]).
  - unfold scope_begin in *. destruct ctx as [l|]; [|exfalso; apply N; now split].
    destruct (lib_empty l); [exfalso; apply N; now split|]. rewrite Z. eexists; reflexivity.
  - exfalso. apply N. now split.
Qed.

Definition no_files : embedded :=
  {| file_cores := []; file_cores_stock := None; file_materials := []; file_shapes := [];
     file_wires := []; file_bobbins := []; file_insulations := []; file_wire_materials := [] |}.
Definition any_family (f : string) := true.
Definition round_wire (k : nat) : wire := {| wi_type := "round"; wi_standard := None; wi_payload := k |}.
Definition wire_files : embedded :=
  {| file_cores := []; file_cores_stock := None; file_materials := []; file_shapes := [];
     file_wires := [("w1", round_wire 1); ("w2", round_wire 2)]; file_bobbins := [];
     file_insulations := []; file_wire_materials := [] |}.
Definition start : process :=
  {| here := {| frozen := false; add_internal := true; cats := no_catalogs; magnetics := [];
                energies := []; settings := fresh; wires_memo := (0, []) |};
     scopes := []; active_count := 0 |}.
Definition wire_library (m : mode) (ws : smap wire) : library :=
  {| lib_mode := m; lib_cores := None; lib_materials := None; lib_shapes := None;
     lib_wires := Some ws; lib_bobbins := None; lib_insulations := None; lib_wire_materials := None |}.
Example C20_witness :
  let p := after wire_files any_family [AFindWire "w1"; AMagLoad "m" 7; AFreeze true] start in
  is_frozen p /\ Forall ordinary [AFindWire "w1"; AClearAll; AMagClear; AReset] /\
  snd (run wire_files any_family AClearAll p) = Throw "frozen" /\
  snd (run wire_files any_family (AFindWire "w2") p) = Ok tt /\
  snd (run wire_files any_family (AFindBobbin "b") p) = Throw "frozen".
Proof. vm_compute. repeat (split || constructor). Qed.

(** Evicting from the magnetics cache is not refused. *)
Theorem C20_eviction_refuted : exists p op,
  is_frozen p /\ snd (run no_files any_family op p) = Ok tt /\
  ~ same_data p (fst (run no_files any_family op p)).
Proof.
  exists (after no_files any_family [AMagLoad "m" 7; AFreeze true] start), (AMagEvict "m").
  split; [reflexivity|]. split; [reflexivity|]. intros [_ K]. vm_compute in K. discriminate.
Qed.
(** Neither is the end of a library scope. *)
Theorem C20_scope_end_refuted : exists p x,
  is_frozen p /\ snd (run no_files any_family (AScopeEnd x) p) = Ok tt /\
  ~ same_data p (fst (run no_files any_family (AScopeEnd x) p)).
Proof.
  exists (after wire_files any_family
            [ALoadWires None; AScopeBegin "s" (Some (wire_library Replace [("mine", round_wire 9)])); AFreeze true]
            start), "s".
  split; [reflexivity|]. split; [reflexivity|]. intros [K _]. vm_compute in K. discriminate.
Qed.

(** * C22 *)
(** Whatever calls are made while the scope [x] lives, also on other scopes, its end
    puts the catalogs back. *)
Theorem C22_scope_restores : forall files supported p x l h,
  library_ok l -> frozen (here p) = false ->
  Forall (fun op => mentions x op = false) h ->
  cats (here (after files supported (AScopeBegin x (Some l) :: h ++ [AScopeEnd x])%list p)) = cats (here p).
Proof.
  intros files supported p x l h L Z F.
  change (AScopeBegin x (Some l) :: h ++ [AScopeEnd x])%list
    with ([AScopeBegin x (Some l)] ++ (h ++ [AScopeEnd x]))%list.
  rewrite !after_app. set (q := after files supported [AScopeBegin x (Some l)] p).
  assert (Q : scope_of x q = Some (cats (here p))).
  { unfold q, after. simpl. unfold scope_begin. rewrite L, Z. unfold scope_of. cbn [fst scopes].
    now rewrite find_put_same. }
  unfold after at 1. simpl. unfold scope_end. cbn [here].
  unfold restore. rewrite after_scope_var, Q by exact F. reflexivity.
Qed.
(** The same when the scope object is moved to another variable. *)
Theorem C22_moved_scope_restores : forall files supported p x y l h1 h2,
  library_ok l -> frozen (here p) = false -> x <> y ->
  Forall (fun op => mentions x op = false) h1 ->
  Forall (fun op => mentions x op = false /\ mentions y op = false) h2 ->
  let q := after files supported (AScopeBegin x (Some l) :: h1 ++ AScopeMove x y :: h2 ++ [AScopeEnd y])%list p in
  cats (here q) = cats (here p) /\
  (* and the end of the variable moved from changes nothing *)
  here (fst (run files supported (AScopeEnd x) q)) = here q.
Proof.
  intros files supported p x y l h1 h2 L Z N F1 F2.
  change (AScopeBegin x (Some l) :: h1 ++ AScopeMove x y :: h2 ++ [AScopeEnd y])%list
    with ([AScopeBegin x (Some l)] ++ (h1 ++ ([AScopeMove x y] ++ (h2 ++ [AScopeEnd y]))))%list.
  rewrite !after_app.
  set (q0 := after files supported [AScopeBegin x (Some l)] p).
  assert (Q0 : scope_of x q0 = Some (cats (here p))).
  { unfold q0, after. simpl. unfold scope_begin. rewrite L, Z. unfold scope_of. cbn [fst scopes].
    now rewrite find_put_same. }
  rewrite <- (after_scope_var files supported h1 x q0 F1) in Q0.
  set (q1 := after files supported h1 q0) in *.
  set (q2 := after files supported [AScopeMove x y] q1).
  assert (Q2y : scope_of y q2 = Some (cats (here p))).
  { unfold q2, after. cbn [fold_left run fst]. unfold scope_move, scope_of. cbn [scopes].
    rewrite find_put_other by congruence. rewrite find_put_same. exact Q0. }
  assert (Q2x : scope_of x q2 = None).
  { unfold q2, after. cbn [fold_left run fst]. unfold scope_move, scope_of. cbn [scopes].
    now rewrite find_put_same. }
  assert (Q3y : scope_of y (after files supported h2 q2) = Some (cats (here p))).
  { rewrite after_scope_var; [exact Q2y|]. eapply Forall_impl; [|exact F2]. now intros a []. }
  assert (Q3x : scope_of x (after files supported h2 q2) = None).
  { rewrite after_scope_var; [exact Q2x|]. eapply Forall_impl; [|exact F2]. now intros a []. }
  set (q3 := after files supported h2 q2) in *.
  unfold after. cbn [fold_left run fst].
  assert (Q4x : scope_of x (scope_end y q3) = None).
  { pose proof (run_scope_var files supported (AScopeEnd y) x q3) as K. cbn [run fst] in K.
    rewrite K; [exact Q3x|]. simpl. now apply String.eqb_neq. }
  split.
  - unfold scope_end, restore. now rewrite Q3y.
  - set (q4 := scope_end y q3) in *. clearbody q4. unfold scope_end, restore. now rewrite Q4x.
Qed.
(** A scope over no library or an empty one changes nothing, when it begins and when
    it ends. *)
Theorem C22_empty_library_changes_nothing : forall files supported p x ctx h,
  match ctx with Some l => lib_empty l = true | None => True end ->
  Forall (fun op => mentions x op = false) h ->
  here (fst (run files supported (AScopeBegin x ctx) p)) = here p /\
  snd (run files supported (AScopeBegin x ctx) p) = Ok tt /\
  let q := after files supported (AScopeBegin x ctx :: h) p in
  here (fst (run files supported (AScopeEnd x) q)) = here q.
Proof.
  intros files supported p x ctx h E F. cbn [run].
  assert (B : scope_begin x ctx p = ({| here := here p; scopes := put_scope x None (scopes p);
                                        active_count := active_count p |}, Ok tt)).
  { unfold scope_begin. destruct ctx as [l|]; [now rewrite E|reflexivity]. }
  split; [now rewrite B|]. split; [now rewrite B|]. cbv zeta.
  change (AScopeBegin x ctx :: h) with ([AScopeBegin x ctx] ++ h)%list. rewrite after_app.
  set (q := after files supported [AScopeBegin x ctx] p).
  assert (Q : scope_of x q = None).
  { unfold q, after. cbn [fold_left run]. rewrite B. unfold scope_of. cbn [fst scopes]. now rewrite find_put_same. }
  cbn [fst]. unfold scope_end, restore. cbn [here].
  rewrite (after_scope_var files supported h x q F), Q. reflexivity.
Qed.
(** Nested scopes: as many as one likes, ended in the reverse order. *)
Fixpoint nest (l : list (string * library * list api)) (inner : list api) : list api :=
  match l with
  | [] => inner
  | (x, lib, h) :: rest => (AScopeBegin x (Some lib) :: (h ++ nest rest inner) ++ [AScopeEnd x])%list
  end.
Theorem C22_nested_scopes_restore : forall files supported l inner p,
  l <> [] -> frozen (here p) = false ->
  Forall (fun e => library_ok (snd (fst e))) l ->
  NoDup (map (fun e => fst (fst e)) l) ->
  Forall (fun e => Forall (fun op => Forall (fun e' => mentions (fst (fst e')) op = false) l) (snd e)) l ->
  Forall (fun op => Forall (fun e' => mentions (fst (fst e')) op = false) l) inner ->
  cats (here (after files supported (nest l inner) p)) = cats (here p).
Proof.
  intros files supported l inner p N Z L D H I.
  destruct l as [|[[x lib] h] rest]; [contradiction|]. cbn [nest].
  apply Forall_cons_iff in L as [L _]. cbn [fst snd] in *.
  apply C22_scope_restores; [exact L|exact Z|].
  assert (A : forall op, Forall (fun e' : string * library * list api => mentions (fst (fst e')) op = false)
                       ((x, lib, h) :: rest) -> mentions x op = false).
  { intros op K. apply Forall_cons_iff in K as [K _]. exact K. }
  apply Forall_app. split.
  - apply Forall_cons_iff in H as [H _]. cbn [snd] in H. eapply Forall_impl; [|exact H]. exact A.
  - apply Forall_cons_iff in H as [_ H]. cbn [map] in D. apply NoDup_cons_iff in D as [D1 _].
    clear L Z N. induction rest as [|[[y lib'] h'] rest IH]; cbn [nest].
    + eapply Forall_impl; [|exact I]. exact A.
    + assert (XY : x <> y) by (intros ->; apply D1; now left).
      apply Forall_cons_iff in H as [H1 H2]. cbn [fst snd] in *.
      constructor; [simpl; now apply String.eqb_neq|].
      apply Forall_app. split; [apply Forall_app; split|].
      * eapply Forall_impl; [|exact H1]. exact A.
      * assert (W : forall op, Forall (fun e' : string * library * list api => mentions (fst (fst e')) op = false)
                    ((x, lib, h) :: (y, lib', h') :: rest) ->
                    Forall (fun e' : string * library * list api => mentions (fst (fst e')) op = false)
                    ((x, lib, h) :: rest)).
        { intros op K. inversion K as [|? ? K1 K2]; subst. inversion K2; subst. now constructor. }
        apply IH.
        -- intros K. apply D1. now right.
        -- eapply Forall_impl; [|exact H2]. intros e K. eapply Forall_impl; [|exact K]. exact W.
        -- eapply Forall_impl; [|exact I]. exact W.
        -- intros op K. apply Forall_cons_iff in K as [K _]. exact K.
      * constructor; [simpl; now apply String.eqb_neq|constructor].
Qed.
Example C22_witness :
  let lib := wire_library Merge [("mine", round_wire 9)] in
  let h := nest [("a", lib, [AFindWire "mine"; AClearAll]); ("b", wire_library Replace [("z", round_wire 3)], [])]
                [ALoadWires None] in
  let p := after wire_files any_family [ALoadWires None] start in
  library_ok lib /\ frozen (here p) = false /\
  cats (here (after wire_files any_family h p)) = cats (here p) /\
  cats (here (after wire_files any_family (firstn 2 h) p)) <> cats (here p).
Proof. vm_compute. repeat split; discriminate. Qed.
(** Scopes that do not end in the reverse order leave a library behind. *)
Theorem C22_not_nested_refuted : exists p h,
  let q := after no_files any_family h p in
  any_active p = false /\ any_active q = false /\ cats (here q) <> cats (here p).
Proof.
  exists start, [AScopeBegin "a" (Some (wire_library Merge [("mine", round_wire 9)]));
                 AScopeBegin "b" (Some (wire_library Merge [("other", round_wire 8)]));
                 AScopeEnd "a"; AScopeEnd "b"].
  vm_compute. repeat split. discriminate.
Qed.
(** Reusing a scope variable for another library ([s = other.applyScoped()]) takes
    the new library out at once and leaves the old one behind for good. *)
Theorem C22_reassigned_scope_refuted : exists p la lb,
  let begun := after no_files any_family [AScopeBegin "s" (Some la); AScopeBegin "temporary" (Some lb)] p in
  let reused := after no_files any_family [AScopeAssign "temporary" "s"; AScopeEnd "temporary"] begun in
  let over := after no_files any_family [AScopeEnd "s"] reused in
  library_ok la /\ library_ok lb /\
  cats (here reused) = cats (here p) /\ any_active reused = true /\
  cats (here over) = applied la (cats (here p)) /\ cats (here over) <> cats (here p) /\
  any_active over = false.
Proof.
  exists start, (wire_library Merge [("mine", round_wire 9)]), (wire_library Merge [("other", round_wire 8)]).
  vm_compute. repeat split; discriminate.
Qed.

(** * C23 *)
Lemma begin_cats files supported x l p :
  library_ok l -> frozen (here p) = false ->
  cats (here (fst (run files supported (AScopeBegin x (Some l)) p))) = applied l (cats (here p)).
Proof. intros L Z. cbn [run]. unfold scope_begin. now rewrite L, Z. Qed.
Lemma entry_found {T} n (v : T) o base : named_entry n v o ->
  find n (insert_all (provided o) base) = Some v /\ insert_all (provided o) base <> [].
Proof.
  intros (m & -> & S & I). cbn [provided].
  assert (F : find n (insert_all m base) = Some v).
  { rewrite find_insert_all by (now apply sorted_NoDup). now rewrite (sorted_In_find n v m S I). }
  split; [exact F|]. intros K. rewrite K in F. discriminate.
Qed.
(** After any lookups made while the scope is active, a name of the library is
    found with the library's entry, for the six catalogs kept by name. *)
Theorem C23_library_entries_win : forall files supported p x l h n,
  library_ok l -> frozen (here p) = false -> Forall (fun op => lookup op = true) h ->
  let w := here (after files supported (AScopeBegin x (Some l) :: h) p) in
  (forall v, named_entry n v (lib_materials l) -> normalize_micro_sign n = n ->
             snd (find_material files n w) = Ok v) /\
  (forall v, named_entry n v (lib_shapes l) ->
             snd (try_find_shape files supported n w) = Ok (Some v) /\
             snd (find_shape files supported n w) = Ok v) /\
  (forall v, named_entry n v (lib_wires l) -> snd (find_wire files n w) = Ok v) /\
  (forall v, named_entry n v (lib_bobbins l) -> snd (find_bobbin files n w) = Ok v) /\
  (forall v, named_entry n v (lib_insulations l) -> snd (find_insulation files n w) = Ok v) /\
  (forall v, named_entry n v (lib_wire_materials l) -> snd (find_wire_material files n w) = Ok v).
Proof.
  intros files supported p x l h n L Z F w.
  assert (U : untouched (applied l (cats (here p))) (cats w)).
  { unfold w. change (AScopeBegin x (Some l) :: h) with ([AScopeBegin x (Some l)] ++ h)%list.
    rewrite after_app. rewrite <- (begin_cats files supported x l p L Z).
    unfold after at 2. cbn [fold_left]. now apply after_lookups. }
  clearbody w. destruct U as (_ & U2 & U3 & U4 & U5 & U6 & U7). unfold applied in *. cbv zeta in *.
  cbn [materials shapes wires bobbins insulations wire_materials] in *.
  set (base := if is_replace (lib_mode l) then _ else _) in *. clearbody base.
  repeat apply conj; intros v N.
  - intros M. destruct (entry_found n v _ (materials base) N) as [A B]. pose proof (U2 B) as EE. rewrite <- EE in A, B.
    unfold find_material. rewrite M. rewrite (seq_ok _ _ _ w tt) by now apply when_empty_skip.
    now rewrite A.
  - destruct (entry_found n v _ (shapes base) N) as [A B]. pose proof (proj1 (U3 B)) as EE. rewrite <- EE in A, B.
    assert (T : try_find_shape files supported n w = (w, Ok (Some v))).
    { unfold try_find_shape. rewrite (seq_ok _ _ _ w tt) by now apply when_empty_skip.
      unfold reading. now rewrite A. }
    rewrite T. split; [reflexivity|]. unfold find_shape, seq. now rewrite T.
  - destruct (entry_found n v _ (wires base) N) as [A B]. pose proof (U4 B) as EE. rewrite <- EE in A, B.
    unfold find_wire. rewrite (seq_ok _ _ _ w tt) by now apply when_empty_skip.
    unfold find_in. now rewrite A.
  - destruct (entry_found n v _ (bobbins base) N) as [A B]. pose proof (U5 B) as EE. rewrite <- EE in A, B.
    unfold find_bobbin. rewrite (seq_ok _ _ _ w tt) by now apply when_empty_skip.
    unfold find_in. now rewrite A.
  - destruct (entry_found n v _ (insulations base) N) as [A B]. pose proof (U6 B) as EE. rewrite <- EE in A, B.
    unfold find_insulation. rewrite (seq_ok _ _ _ w tt) by now apply when_empty_skip.
    unfold find_in. now rewrite A.
  - destruct (entry_found n v _ (wire_materials base) N) as [A B]. pose proof (U7 B) as EE. rewrite <- EE in A, B.
    unfold find_wire_material. rewrite (seq_ok _ _ _ w tt) by now apply when_empty_skip.
    unfold find_in. now rewrite A.
Qed.
Lemma first_named_find n c l : first_named n c l -> List.find (has_name n) l = Some c.
Proof.
  intros (b & a & -> & N & F). rewrite find_app_none.
  - simpl. unfold has_name. now rewrite N, String.eqb_refl.
  - induction F as [|c' b F1 F2 IH]; [reflexivity|]. simpl. unfold has_name at 1.
    destruct (co_name c') as [m|]; [|exact IH]. destruct (String.eqb m n) eqn:E; [|exact IH].
    apply String.eqb_eq in E. now subst.
Qed.
(** Cores are a list: the library's core is found in Replace mode, and in Merge mode
    when the catalog has no core of that name. *)
Theorem C23_library_cores_partial : forall files supported p x l cs h n c,
  library_ok l -> frozen (here p) = false -> Forall (fun op => lookup op = true) h ->
  lib_cores l = Some cs -> first_named n c cs ->
  lib_mode l = Replace \/ Forall (fun c' => co_name c' <> Some n) (cores (cats (here p))) ->
  snd (find_core files n (here (after files supported (AScopeBegin x (Some l) :: h) p))) = Ok c.
Proof.
  intros files supported p x l cs h n c L Z F LC FN M.
  set (w := here _).
  assert (U : untouched (applied l (cats (here p))) (cats w)).
  { unfold w. change (AScopeBegin x (Some l) :: h) with ([AScopeBegin x (Some l)] ++ h)%list.
    rewrite after_app. rewrite <- (begin_cats files supported x l p L Z).
    unfold after at 2. cbn [fold_left]. now apply after_lookups. }
  clearbody w. destruct U as (U1 & _).
  assert (A : exists b, Forall (fun c' => co_name c' <> Some n) b /\ cores (applied l (cats (here p))) = app b cs).
  { unfold applied. cbv zeta. cbn [cores]. rewrite LC. cbn [provided]. destruct M as [->|M].
    - exists []. split; [constructor|reflexivity].
    - destruct (is_replace (lib_mode l)); [exists []; split; [constructor|reflexivity]|].
      exists (cores (cats (here p))). now split. }
  destruct A as (b & FB & A).
  assert (FN' : first_named n c (app b cs)).
  { destruct FN as (b' & a' & -> & N & FB'). exists (app b b'), a'. rewrite app_assoc.
    split; [reflexivity|]. split; [exact N|]. apply Forall_app. now split. }
  assert (NE : cores (applied l (cats (here p))) <> []).
  { rewrite A. destruct FN' as (b2 & a2 & E & _). rewrite E. now destruct b2. }
  specialize (U1 NE). rewrite A in U1. unfold find_core.
  rewrite (seq_ok _ _ _ w tt) by (apply when_empty_skip; rewrite U1, <- A; exact NE).
  rewrite U1, (first_named_find n c _ FN'). reflexivity.
Qed.
Definition plain_core (n : string) (k : nat) : core :=
  {| co_name := Some n; co_toroidal := false; co_fits := true; co_shape := inl "E 42";
     co_material := inl "N87"; co_payload := k |}.
Definition core_library (m : mode) (cs : list core) : library :=
  {| lib_mode := m; lib_cores := Some cs; lib_materials := None; lib_shapes := None;
     lib_wires := None; lib_bobbins := None; lib_insulations := None; lib_wire_materials := None |}.
Definition core_files (l : list core) : embedded :=
  {| file_cores := l; file_cores_stock := None; file_materials := []; file_shapes := [];
     file_wires := []; file_bobbins := []; file_insulations := []; file_wire_materials := [] |}.
Example C23_witness :
  let lib := wire_library Merge [("w1", round_wire 9)] in
  let p := after wire_files any_family [ALoadWires None] start in
  library_ok lib /\ named_entry "w1" (round_wire 9) (lib_wires lib) /\
  snd (find_wire wire_files "w1" (here p)) = Ok (round_wire 1) /\
  snd (find_wire wire_files "w1" (here (after wire_files any_family [AScopeBegin "s" (Some lib); AFindBobbin "b"] p)))
    = Ok (round_wire 9).
Proof.
  split; [reflexivity|]. split; [|split; reflexivity].
  eexists. split; [reflexivity|]. split; [repeat constructor|now left].
Qed.
(** In Merge mode a built-in core wins over the library's core of the same name. *)
Theorem C23_core_merge_refuted : exists files p lib,
  library_ok lib /\ lib_mode lib = Merge /\ lib_cores lib = Some [plain_core "c" 9] /\
  snd (find_core files "c" (here (after files any_family [AScopeBegin "s" (Some lib)] p)))
    = Ok (plain_core "c" 1).
Proof.
  exists (core_files [plain_core "c" 1]),
    (after (core_files [plain_core "c" 1]) any_family [ALoadCores None] start),
    (core_library Merge [plain_core "c" 9]).
  repeat split.
Qed.
(** A material whose name spells the micro sign in the other way is not found. *)
Definition a_material (k : nat) : material := {| ma_type := "powder"; ma_commercial := ""; ma_payload := k |}.
Definition micro : ascii := ascii_of_nat 181.
Definition odd_name : string := "Kool M" ++ String micro " 26".
Theorem C23_micro_sign_refuted : exists p lib e,
  library_ok lib /\ named_entry odd_name (a_material 9) (lib_materials lib) /\
  snd (find_material no_files odd_name (here (after no_files any_family [AScopeBegin "s" (Some lib)] p))) = Throw e.
Proof.
  exists start, {| lib_mode := Merge; lib_cores := None; lib_materials := Some [(odd_name, a_material 9)];
    lib_shapes := None; lib_wires := None; lib_bobbins := None; lib_insulations := None;
    lib_wire_materials := None |}.
  eexists. split; [reflexivity|]. split; [|vm_compute; reflexivity].
  eexists. split; [reflexivity|]. split; [repeat constructor|now left].
Qed.
(** The list of wires is the one from before the scope when the number of wires is
    the same. *)
Theorem C23_wire_list_refuted : exists p lib,
  library_ok lib /\ named_entry "w1" (round_wire 9) (lib_wires lib) /\
  snd (get_wires wire_files None None (here (after wire_files any_family
        [AGetWires None None; AScopeBegin "s" (Some lib)] p))) = Ok [round_wire 1; round_wire 2].
Proof.
  exists start, (wire_library Merge [("w1", round_wire 9)]).
  split; [reflexivity|]. split; [|vm_compute; reflexivity].
  eexists. split; [reflexivity|]. split; [repeat constructor|now left].
Qed.

(** * C50: merging keeps the other entries *)
(** In Merge mode, an entry of a catalog that is loaded and that the library does not
    redefine is still found, for the six catalogs kept by name. *)
Definition not_redefined {T} (n : string) (o : option (smap T)) : Prop :=
  sorted (provided o) /\ ~ In n (keys (provided o)).
Lemma entry_kept {T} n (v : T) o base : not_redefined n o -> find n base = Some v ->
  find n (insert_all (provided o) base) = Some v /\ insert_all (provided o) base <> [].
Proof.
  intros (S & N) B.
  assert (F : find n (insert_all (provided o) base) = Some v).
  { rewrite find_insert_all by (now apply sorted_NoDup). apply find_None in N. now rewrite N. }
  split; [exact F|]. intros K. rewrite K in F. discriminate.
Qed.
Theorem C50_merge_keeps_other_entries_partial : forall files supported p x l h n,
  library_ok l -> lib_mode l = Merge -> frozen (here p) = false -> Forall (fun op => lookup op = true) h ->
  let c := cats (here p) in
  let w := here (after files supported (AScopeBegin x (Some l) :: h) p) in
  (forall v, find n (materials c) = Some v -> not_redefined n (lib_materials l) ->
             normalize_micro_sign n = n -> snd (find_material files n w) = Ok v) /\
  (forall v, find n (shapes c) = Some v -> not_redefined n (lib_shapes l) ->
             snd (find_shape files supported n w) = Ok v) /\
  (forall v, find n (wires c) = Some v -> not_redefined n (lib_wires l) -> snd (find_wire files n w) = Ok v) /\
  (forall v, find n (bobbins c) = Some v -> not_redefined n (lib_bobbins l) -> snd (find_bobbin files n w) = Ok v) /\
  (forall v, find n (insulations c) = Some v -> not_redefined n (lib_insulations l) ->
             snd (find_insulation files n w) = Ok v) /\
  (forall v, find n (wire_materials c) = Some v -> not_redefined n (lib_wire_materials l) ->
             snd (find_wire_material files n w) = Ok v).
Proof.
  intros files supported p x l h n L M Z F c w.
  assert (U : untouched (applied l c) (cats w)).
  { unfold w. change (AScopeBegin x (Some l) :: h) with ([AScopeBegin x (Some l)] ++ h)%list.
    rewrite after_app. unfold c. rewrite <- (begin_cats files supported x l p L Z).
    unfold after at 2. cbn [fold_left]. now apply after_lookups. }
  clearbody w c. destruct U as (_ & U2 & U3 & U4 & U5 & U6 & U7). unfold applied in *. rewrite M in *.
  cbv zeta in *. cbn [is_replace materials shapes wires bobbins insulations wire_materials] in *.
  repeat apply conj; intros v V N.
  - intros NM. destruct (entry_kept n v _ _ N V) as [A B]. pose proof (U2 B) as EE. rewrite <- EE in A, B.
    unfold find_material. rewrite NM. rewrite (seq_ok _ _ _ w tt) by now apply when_empty_skip.
    now rewrite A.
  - destruct (entry_kept n v _ _ N V) as [A B]. pose proof (proj1 (U3 B)) as EE. rewrite <- EE in A, B.
    unfold find_shape, try_find_shape. unfold seq at 1. rewrite (seq_ok _ _ _ w tt) by now apply when_empty_skip.
    unfold reading. now rewrite A.
  - destruct (entry_kept n v _ _ N V) as [A B]. pose proof (U4 B) as EE. rewrite <- EE in A, B.
    unfold find_wire. rewrite (seq_ok _ _ _ w tt) by now apply when_empty_skip.
    unfold find_in. now rewrite A.
  - destruct (entry_kept n v _ _ N V) as [A B]. pose proof (U5 B) as EE. rewrite <- EE in A, B.
    unfold find_bobbin. rewrite (seq_ok _ _ _ w tt) by now apply when_empty_skip.
    unfold find_in. now rewrite A.
  - destruct (entry_kept n v _ _ N V) as [A B]. pose proof (U6 B) as EE. rewrite <- EE in A, B.
    unfold find_insulation. rewrite (seq_ok _ _ _ w tt) by now apply when_empty_skip.
    unfold find_in. now rewrite A.
  - destruct (entry_kept n v _ _ N V) as [A B]. pose proof (U7 B) as EE. rewrite <- EE in A, B.
    unfold find_wire_material. rewrite (seq_ok _ _ _ w tt) by now apply when_empty_skip.
    unfold find_in. now rewrite A.
Qed.
(** A catalog that is not loaded yet when the scope begins is not loaded later: its
    built-in entries cannot be found. *)
Theorem C50_not_loaded_yet_refuted : exists p lib e,
  library_ok lib /\ lib_mode lib = Merge /\ not_redefined "w1" (lib_wires lib) /\
  snd (find_wire wire_files "w1" (here p)) = Ok (round_wire 1) /\
  snd (find_wire wire_files "w1" (here (after wire_files any_family [AScopeBegin "s" (Some lib)] p))) = Throw e.
Proof.
  exists start, (wire_library Merge [("mine", round_wire 9)]). eexists.
  split; [reflexivity|]. split; [reflexivity|].
  split; [split; [repeat constructor|simpl; intros [K|[]]; discriminate]|].
  split; vm_compute; reflexivity.
Qed.
Example C50_witness :
  let lib := wire_library Merge [("mine", round_wire 9)] in
  let p := after wire_files any_family [ALoadWires None] start in
  library_ok lib /\ find "w1" (wires (cats (here p))) = Some (round_wire 1) /\
  snd (find_wire wire_files "w1" (here (after wire_files any_family [AScopeBegin "s" (Some lib)] p)))
  = Ok (round_wire 1).
Proof. vm_compute. auto. Qed.

(** * C51: replacing shows the library only *)
Definition provides {T} (o : option (smap T)) : Prop := provided o <> [] /\ sorted (provided o).
Lemma only_library {T} (o : option (smap T)) : provides o ->
  insert_all (provided o) [] = provided o /\ insert_all (provided o) [] <> [].
Proof.
  intros (N & S).
  assert (E : insert_all (provided o) [] = provided o).
  { apply smap_ext; [apply insert_all_sorted; constructor|exact S|]. intros k.
    rewrite find_insert_all by (now apply sorted_NoDup). now destruct (find k (provided o)). }
  split; [exact E|]. now rewrite E.
Qed.
Theorem C51_replaced_kinds_show_the_library_only_partial : forall files supported p x l h n,
  library_ok l -> lib_mode l = Replace -> frozen (here p) = false -> Forall (fun op => lookup op = true) h ->
  let w := here (after files supported (AScopeBegin x (Some l) :: h) p) in
  (forall v, provided (lib_cores l) <> [] -> snd (find_core files n w) = Ok v -> In v (provided (lib_cores l))) /\
  (forall v, provides (lib_materials l) -> snd (find_material files n w) = Ok v ->
             exists k, In (k, v) (provided (lib_materials l))) /\
  (forall v, provides (lib_shapes l) -> snd (find_shape files supported n w) = Ok v ->
             exists k, In (k, v) (provided (lib_shapes l))) /\
  (forall v, provides (lib_wires l) -> snd (find_wire files n w) = Ok v -> In (n, v) (provided (lib_wires l))) /\
  (forall v, provides (lib_insulations l) -> snd (find_insulation files n w) = Ok v ->
             In (n, v) (provided (lib_insulations l))) /\
  (forall v, provides (lib_wire_materials l) -> snd (find_wire_material files n w) = Ok v ->
             In (n, v) (provided (lib_wire_materials l))).
Proof.
  intros files supported p x l h n L M Z F w.
  assert (U : untouched (applied l (cats (here p))) (cats w)).
  { unfold w. change (AScopeBegin x (Some l) :: h) with ([AScopeBegin x (Some l)] ++ h)%list.
    rewrite after_app. rewrite <- (begin_cats files supported x l p L Z).
    unfold after at 2. cbn [fold_left]. now apply after_lookups. }
  clearbody w. destruct U as (U1 & U2 & U3 & U4 & _ & U6 & U7). unfold applied in *. rewrite M in *.
  cbv zeta in *. cbn [is_replace cores materials shapes wires bobbins insulations wire_materials app] in *.
  repeat apply conj; intros v P H.
  - specialize (U1 P). unfold find_core in H.
    rewrite (seq_ok _ _ _ w tt) in H by (apply when_empty_skip; now rewrite U1).
    destruct (List.find (has_name n) (cores (cats w))) as [c|] eqn:E; simpl in H; [|discriminate].
    injection H as <-. rewrite <- U1. now apply find_some in E.
  - destruct (only_library _ P) as [E B]. specialize (U2 B). unfold find_material in H.
    rewrite (seq_ok _ _ _ w tt) in H by (apply when_empty_skip; now rewrite U2).
    rewrite U2, E in H. destruct (find _ (provided (lib_materials l))) as [v'|] eqn:Q; simpl in H.
    + injection H as <-. apply find_In in Q. eauto.
    + destruct (List.find _ (provided (lib_materials l))) as [[k v']|] eqn:Q2; simpl in H; [|discriminate].
      injection H as <-. apply find_some in Q2 as [Q2 _]. eauto.
  - destruct (only_library _ P) as [E B]. destruct (U3 B) as [U3' _].
    unfold find_shape, try_find_shape in H. unfold seq at 1 in H.
    rewrite (seq_ok _ _ _ w tt) in H by (apply when_empty_skip; now rewrite U3').
    unfold reading in H. rewrite U3', E in H.
    destruct (find n (provided (lib_shapes l))) as [v'|] eqn:Q; simpl in H.
    + injection H as <-. apply find_In in Q. eauto.
    + destruct (List.find _ (provided (lib_shapes l))) as [[k v']|] eqn:Q2; simpl in H; [|discriminate].
      injection H as <-. apply find_some in Q2 as [Q2 _]. eauto.
  - destruct (only_library _ P) as [E B]. specialize (U4 B). unfold find_wire in H.
    rewrite (seq_ok _ _ _ w tt) in H by (apply when_empty_skip; now rewrite U4).
    unfold find_in in H. rewrite U4, E in H.
    destruct (find n (provided (lib_wires l))) as [v'|] eqn:Q; simpl in H; [|discriminate].
    injection H as <-. now apply find_In.
  - destruct (only_library _ P) as [E B]. specialize (U6 B). unfold find_insulation in H.
    rewrite (seq_ok _ _ _ w tt) in H by (apply when_empty_skip; now rewrite U6).
    unfold find_in in H. rewrite U6, E in H.
    destruct (find n (provided (lib_insulations l))) as [v'|] eqn:Q; simpl in H; [|discriminate].
    injection H as <-. now apply find_In.
  - destruct (only_library _ P) as [E B]. specialize (U7 B). unfold find_wire_material in H.
    rewrite (seq_ok _ _ _ w tt) in H by (apply when_empty_skip; now rewrite U7).
    unfold find_in in H. rewrite U7, E in H.
    destruct (find n (provided (lib_wire_materials l))) as [v'|] eqn:Q; simpl in H; [|discriminate].
    injection H as <-. now apply find_In.
Qed.
(** A kind the library does not provide is filled with the built-in entries on the
    first lookup. *)
Theorem C51_missing_kind_refuted : exists p lib,
  library_ok lib /\ lib_mode lib = Replace /\ lib_wires lib = None /\
  snd (find_wire wire_files "w1" (here (after wire_files any_family [AScopeBegin "s" (Some lib)] p)))
  = Ok (round_wire 1).
Proof. exists start, (core_library Replace [plain_core "c" 1]). vm_compute. auto. Qed.
Example C51_witness :
  let lib := wire_library Replace [("mine", round_wire 9)] in
  let p := after wire_files any_family [ALoadWires None] start in
  library_ok lib /\ sorted (provided (lib_wires lib)) /\
  let w := here (after wire_files any_family [AScopeBegin "s" (Some lib)] p) in
  snd (find_wire wire_files "w1" w) = Throw "WireNotFound" /\
  snd (find_wire wire_files "mine" w) = Ok (round_wire 9).
Proof. split; [reflexivity|]. split; [repeat constructor|]. vm_compute. auto. Qed.

(** * C36, the catalogs *)
(** A reset that changes one of the three selection flags drops cores and shapes and
    leaves the other catalogs; the next lookup loads them under the defaults. *)
Definition selection (s : store) : list value := map s ["_useToroidalCores"; "_useConcentricCores"; "_useOnlyCoresInStock"].
Definition boolean_flags (s : store) : Prop :=
  Forall (fun v => exists b, v = VBool b) (selection s).
Lemma reset_flags s : reset_members s "_useToroidalCores" = VBool true /\
  reset_members s "_useConcentricCores" = VBool true /\ reset_members s "_useOnlyCoresInStock" = VBool true.
Proof. vm_compute. auto. Qed.
Theorem C36_reset_drops_other_selections : forall w,
  frozen w = false -> boolean_flags (settings w) ->
  let (w', o) := settings_reset w in
  o = Ok tt /\
  (selection (settings w) <> selection fresh ->
     cores (cats w') = [] /\ shapes (cats w') = [] /\ families (cats w') = []) /\
  (selection (settings w) = selection fresh -> cats w' = cats w) /\
  materials (cats w') = materials (cats w) /\ wires (cats w') = wires (cats w) /\
  bobbins (cats w') = bobbins (cats w) /\ insulations (cats w') = insulations (cats w) /\
  wire_materials (cats w') = wire_materials (cats w) /\
  forall g v, get g fresh = Some v -> get g (settings w') = Some v.
Proof.
  intros w Z B.
  assert (FR : selection fresh = [VBool true; VBool true; VBool true]) by (vm_compute; reflexivity).
  rewrite FR.
  assert (D : reset_drops_catalogs (settings w) = true <-> selection (settings w) <> [VBool true; VBool true; VBool true]).
  { unfold reset_drops_catalogs. cbv zeta. unfold flag. destruct (reset_flags (settings w)) as (R1 & R2 & R3).
    rewrite R1, R2, R3. unfold boolean_flags, selection in *. cbn [map] in *.
    apply Forall_cons_iff in B as [(b1 & B1) B]. apply Forall_cons_iff in B as [(b2 & B2) B].
    apply Forall_cons_iff in B as [(b3 & B3) B]. rewrite B1, B2, B3.
    destruct b1, b2, b3; simpl; split; (intros _; reflexivity) || discriminate || (intros K; exfalso; now apply K). }
  rewrite settings_reset_eq. cbv zeta.
  pose proof (C36_reset_restores_every_setting (settings w)) as G.
  set (s' := reset_members (settings w)) in *. clearbody s'.
  destruct (reset_drops_catalogs (settings w)) eqn:E.
  - unfold clear_cores, clear_shapes, seq, guard, change_cats, change. cbn [set_settings frozen]. rewrite Z.
    cbn [set_cats set_settings frozen]. rewrite Z. cbn [set_cats set_settings frozen cats settings with_cores
      with_shapes cores shapes families materials wires bobbins insulations wire_materials].
    repeat split; auto. intros K. exfalso. apply (proj1 D eq_refl K).
  - cbn [set_settings cats settings]. repeat split; auto; exfalso; pose proof (proj2 D H); discriminate.
Qed.
Example C36_catalogs_witness :
  let w := here (after (core_files [plain_core "c" 1]) any_family
                   [ASet "set_use_toroidal_cores" (VBool false); ALoadCores None] start) in
  frozen w = false /\ boolean_flags (settings w) /\ selection (settings w) <> selection fresh /\
  cores (cats w) <> [] /\ cores (cats (fst (settings_reset w))) = [].
Proof.
  split; [reflexivity|]. split; [|split; [|split]].
  - unfold boolean_flags. repeat (constructor; [vm_compute; eexists; reflexivity|]). constructor.
  - vm_compute. discriminate.
  - vm_compute. discriminate.
  - vm_compute. reflexivity.
Qed.
(** On frozen databases the settings go back to their defaults, the call throws and the
    catalogs of the other selection stay. *)
Theorem C36_frozen_refuted : exists w e,
  frozen w = true /\ snd (settings_reset w) = Throw e /\
  selection (settings w) <> selection fresh /\
  selection (settings (fst (settings_reset w))) = selection fresh /\
  cores (cats (fst (settings_reset w))) = cores (cats w) /\ cores (cats w) <> [].
Proof.
  exists (here (after (core_files [plain_core "c" 1]) any_family
                   [ASet "set_use_toroidal_cores" (VBool false); ALoadCores None; AFreeze true] start)), "frozen".
  vm_compute. repeat split; discriminate.
Qed.

(** * C44 *)
Theorem C44_accepts_what_is_listed : forall f v,
  accepts f v = true <-> (allowed f = [] \/ In v (allowed f)) /\ ~ In v (blocked f).
Proof.
  intros [al bl] v. unfold accepts, listed. cbn [allowed blocked].
  assert (E : forall l, existsb (String.eqb v) l = true <-> In v l).
  { intros l. rewrite existsb_exists. split; [intros (x & I & Q); apply String.eqb_eq in Q; now subst|].
    intros I. exists v. split; [exact I|apply String.eqb_refl]. }
  rewrite andb_true_iff, negb_true_iff, <- not_true_iff_false, E.
  destruct al as [|a al]; [intuition|]. rewrite E. intuition discriminate.
Qed.
(** By enumerator: exactly what is listed, in whatever case. *)
Theorem C44_accepts_enumerators : forall f v,
  accepts_enum f v = true <->
  (allowed f = [] \/ exists x, In x (allowed f) /\ upper x = upper v) /\
  ~ (exists x, In x (blocked f) /\ upper x = upper v).
Proof.
  intros [al bl] v. unfold accepts_enum, no_filter, listed_upper. cbn [allowed blocked].
  assert (E : forall l, existsb (fun x => String.eqb (upper x) (upper v)) l = true <->
                        exists x, In x l /\ upper x = upper v).
  { intros l. rewrite existsb_exists. split; intros (x & I & Q); exists x; split; auto;
      now apply String.eqb_eq. }
  set (la := existsb _ al) in *. set (lb := existsb _ bl) in *.
  assert (R : (if match al, bl with [], [] => true | _, _ => false end then true
               else if match al with [] => false | _ :: _ => negb la end then false
               else if match bl with [] => false | _ :: _ => lb end then false else true)
              = match al with [] => true | _ => la end && negb lb).
  { destruct al as [|a al], bl as [|b bl].
    - reflexivity.
    - clearbody lb. now destruct lb.
    - replace lb with false by reflexivity. clearbody la. now destruct la.
    - clearbody la lb. now destruct la, lb. }
  rewrite R. clear R. unfold la, lb. rewrite andb_true_iff, negb_true_iff, <- not_true_iff_false, E.
  destruct al as [|a al]; [intuition|]. rewrite E. intuition discriminate.
Qed.
(** Text and enumerator agree when every text is spelt as the enumerators are. *)
Theorem C44_text_and_enumerator_agree : forall f v,
  Forall (fun x => upper x = x) (allowed f) -> Forall (fun x => upper x = x) (blocked f) -> upper v = v ->
  accepts_enum f v = accepts f v.
Proof.
  intros f v A B V. apply eq_true_iff_eq. rewrite C44_accepts_what_is_listed, C44_accepts_enumerators.
  rewrite Forall_forall in A, B. rewrite V.
  assert (SA : (exists x, In x (allowed f) /\ upper x = v) <-> In v (allowed f)).
  { split; [intros (x & I & Q); rewrite (A x I) in Q; now subst|]. intros I. exists v. now split. }
  assert (SB : (exists x, In x (blocked f) /\ upper x = v) <-> In v (blocked f)).
  { split; [intros (x & I & Q); rewrite (B x I) in Q; now subst|]. intros I. exists v. now split. }
  now rewrite SA, SB.
Qed.
Theorem C44_case_refuted : exists f v, accepts_enum f v = true /\ accepts f v = false.
Proof. exists {| allowed := ["Etd"]; blocked := [] |}, "ETD". vm_compute. auto. Qed.
Theorem C44_empty_filter_accepts_all : forall f v,
  allowed f = [] -> blocked f = [] -> accepts f v = true /\ accepts_enum f v = true.
Proof. intros [al bl] v A B. cbn in A, B. subst. split; reflexivity. Qed.

(** The cores kept by a constraint: those whose shape family and material type are
    accepted, in their order; a name that is in no catalog is not accepted. *)
Definition family_of (db : catalogs) (x : core) : option string :=
  match co_shape x with inr s => Some (sh_family s) | inl n => option_map sh_family (find n (shapes db)) end.
Definition type_of (db : catalogs) (x : core) : option string :=
  match co_material x with inr m => Some (ma_type m) | inl n => option_map ma_type (find n (materials db)) end.
Definition passes (f : type_filter) (o : option string) : Prop :=
  (allowed f = [] /\ blocked f = []) \/ exists v, o = Some v /\ accepts_enum f v = true.
Inductive subsequence {A} : list A -> list A -> Prop :=
| sub_nil : subsequence [] []
| sub_keep x l m : subsequence l m -> subsequence (x :: l) (x :: m)
| sub_skip x l m : subsequence l m -> subsequence l (x :: m).
Lemma filter_subsequence {A} (f : A -> bool) l : subsequence (filter f l) l.
Proof. induction l as [|x l IH]; simpl; [constructor|]. destruct (f x); now constructor. Qed.
Lemma subsequence_refl {A} (l : list A) : subsequence l l.
Proof. induction l; now constructor. Qed.
Lemma no_filter_iff f : no_filter f = true <-> allowed f = [] /\ blocked f = [].
Proof. destruct f as [[|a al] [|b bl]]; simpl; split; try discriminate; try tauto; intros []; discriminate. Qed.
Lemma passes_bool f o :
  no_filter f || match o with Some v => accepts_enum f v | None => false end = true <-> passes f o.
Proof.
  unfold passes. rewrite orb_true_iff, no_filter_iff. split; (intros [H|H]; [now left|right]).
  - destruct o as [v|]; [|discriminate]. now exists v.
  - destruct H as (v & -> & H). exact H.
Qed.
Theorem C44_core_constraints : forall k db l,
  subsequence (filter_cores k db l) l /\
  forall x, In x (filter_cores k db l) <->
    In x l /\ passes (by_family k) (family_of db x) /\ passes (by_material k) (type_of db x).
Proof.
  intros k db l.
  assert (S : forall x, shape_ok k db x = true <-> passes (by_family k) (family_of db x)).
  { intros x. rewrite <- passes_bool. unfold shape_ok, family_of. destruct (co_shape x) as [n|s]; [|tauto].
    destruct (find n (shapes db)); simpl; tauto. }
  assert (M : forall x, material_ok k db x = true <-> passes (by_material k) (type_of db x)).
  { intros x. rewrite <- passes_bool. unfold material_ok, type_of. destruct (co_material x) as [n|s]; [|tauto].
    destruct (find n (materials db)); simpl; tauto. }
  unfold filter_cores. destruct (no_filter (by_family k) && no_filter (by_material k)) eqn:E.
  - split; [apply subsequence_refl|]. intros x. apply andb_prop in E as [E1 E2].
    apply no_filter_iff in E1, E2. unfold passes. tauto.
  - split; [apply filter_subsequence|]. intros x. rewrite filter_In, andb_true_iff, S, M. tauto.
Qed.
Theorem C44_wire_constraints : forall k m,
  subsequence (filter_wires k m) m /\
  forall n x, In (n, x) (filter_wires k m) <-> In (n, x) m /\ passes (by_wire k) (Some (wi_type x)).
Proof.
  intros k m. unfold filter_wires. destruct (no_filter (by_wire k)) eqn:E.
  - split; [apply subsequence_refl|]. intros n x. apply no_filter_iff in E. unfold passes. tauto.
  - split; [apply filter_subsequence|]. intros n x. rewrite filter_In. cbn [snd].
    rewrite <- passes_bool, E. reflexivity.
Qed.
Example C44_witness :
  let f := {| allowed := ["ETD"; "PQ"]; blocked := ["PQ"] |} in
  accepts f "ETD" = true /\ accepts f "PQ" = false /\ accepts f "T" = false /\
  accepts_enum {| allowed := ["etd"]; blocked := [] |} "ETD" = true /\
  filter_cores {| by_family := f; by_material := {| allowed := []; blocked := [] |};
                  by_wire := {| allowed := []; blocked := [] |} |}
    (with_shapes [("E 42", {| sh_family := "ETD"; sh_possible := true; sh_payload := 0 |})] [] no_catalogs)
    [plain_core "a" 1; plain_core "b" 2] = [plain_core "a" 1; plain_core "b" 2].
Proof. vm_compute. auto. Qed.

(** * C52: records that are refused are not served *)
(** Calls that load shapes from files, and whatever else does not take shapes from the
    caller. *)
Definition no_foreign_shapes (op : api) : bool :=
  match op with
  | ALoadDatabases _ _ | AScopeBegin _ _ | AScopeEnd _ | AScopeMove _ _ | AScopeAssign _ _ => false
  | _ => true
  end.
Definition sound_shapes (supported : string -> bool) (c : catalogs) : Prop :=
  forall n s, In (n, s) (shapes c) -> sh_possible s = true /\ supported (sh_family s) = true.
Lemma In_insert_all {T} kv l : forall m : smap T, In kv (insert_all l m) -> In kv l \/ In kv m.
Proof.
  unfold insert_all. induction l as [|[k v] l IH]; simpl; intros m I; [now right|].
  destruct (IH _ I) as [J|J]; [left; now right|]. apply In_insert in J as [->|J]; [left; now left|now right].
Qed.
Lemma sound_add supported a rows w :
  sound_shapes supported (cats w) -> sound_shapes supported (cats (fst (add_shapes supported a rows w))).
Proof.
  intros S. rewrite add_shapes_effect. cbn [set_cats cats with_shapes]. intros n s I. cbn [shapes] in I.
  apply In_insert_all in I as [I|I]; [now apply find_impossible_stored in I|now apply (S n)].
Qed.
Definition keeps_sound (supported : string -> bool) {A} (m : call A) : Prop :=
  forall w, sound_shapes supported (cats w) -> sound_shapes supported (cats (fst (m w))).
Section Sound.
  Context (supported : string -> bool).
  Lemma sound_ret {A} (a : A) : keeps_sound supported (ret a).
  Proof. intros w S. exact S. Qed.
  Lemma sound_fail {A} e : keeps_sound supported (@fail A e).
  Proof. intros w S. exact S. Qed.
  Lemma sound_guard : keeps_sound supported guard.
  Proof. intros w S. unfold guard. now destruct (frozen w). Qed.
  Lemma sound_seq {A B} (m : call A) (f : A -> call B) :
    keeps_sound supported m -> (forall a, keeps_sound supported (f a)) -> keeps_sound supported (seq m f).
  Proof.
    intros M F w S. specialize (M w S). unfold seq. destruct (m w) as [w' [a| | |]]; cbn [fst] in *; auto.
    now apply F.
  Qed.
  Lemma sound_same {A} (m : call A) : (forall w, shapes (cats (fst (m w))) = shapes (cats w)) -> keeps_sound supported m.
  Proof. intros M w S n s I. rewrite M in I. now apply (S n). Qed.
  Lemma sound_when_empty {A} (g : catalogs -> list A) m : keeps_sound supported m -> keeps_sound supported (when_empty g m).
  Proof. intros M w S. unfold when_empty. destruct (g (cats w)); auto. Qed.
  Lemma sound_unless m : keeps_sound supported m -> keeps_sound supported (unless_internal m).
  Proof. intros M w S. unfold unless_internal. destruct (add_internal w); auto. Qed.
  Lemma sound_load_shapes files a f : keeps_sound supported (load_shapes files supported a f).
  Proof.
    apply sound_seq; [apply sound_guard|]. intros _. apply sound_unless. intros w S. now apply sound_add.
  Qed.
  Lemma sound_load_cores files f : keeps_sound supported (load_cores files f).
  Proof.
    apply sound_seq; [apply sound_guard|]. intros _. apply sound_seq; [now apply sound_same|]. intros st.
    apply sound_same. intros w.
    match goal with |- context [add_cores ?r w] => destruct (add_cores_only r w) as (l & E & _) end.
    rewrite E. reflexivity.
  Qed.
  Lemma sound_guarded f : (forall c, shapes (f c) = shapes c) ->
    keeps_sound supported (seq guard (fun _ => unless_internal (change_cats f))).
  Proof.
    intros F. apply sound_seq; [apply sound_guard|]. intros _. apply sound_unless, sound_same.
    intros w. cbn. apply F.
  Qed.
  Lemma sound_find_in {T} (g : catalogs -> smap T) n m : keeps_sound supported m -> keeps_sound supported (find_in g n m).
  Proof. intros M w S. unfold find_in. destruct (find n (g (cats w))); auto. Qed.
  Lemma sound_plain {A} (m : call A) : keeps_sound supported m -> keeps_sound supported (plain m).
  Proof. intros M. apply sound_seq; [exact M|]. intros a. apply sound_ret. Qed.
End Sound.
Lemma act_sound files supported op : no_foreign_shapes op = true -> keeps_sound supported (act files supported op).
Proof.
  intros N.
  assert (T : forall n, keeps_sound supported (try_find_shape files supported n)).
  { intros n. apply sound_seq; [apply sound_when_empty, sound_load_shapes|]. intros _. now apply sound_same. }
  destruct op; try discriminate; cbn [act].
  - now apply sound_same.
  - unfold load_all. apply sound_seq; [apply sound_guard|]. intros _.
    apply sound_seq; [apply sound_when_empty, sound_load_cores|]. intros _.
    apply sound_seq; [apply sound_when_empty; now apply sound_guarded|]. intros _.
    apply sound_seq; [apply sound_when_empty, sound_load_shapes|]. intros _.
    apply sound_seq; [apply sound_when_empty; now apply sound_guarded|]. intros _.
    apply sound_seq; [apply sound_when_empty; now apply sound_guarded|]. intros _.
    apply sound_seq; [apply sound_when_empty; now apply sound_guarded|]. intros _.
    apply sound_when_empty. now apply sound_guarded.
  - apply sound_load_cores.
  - now apply sound_guarded.
  - apply sound_load_shapes.
  - now apply sound_guarded.
  - now apply sound_guarded.
  - now apply sound_guarded.
  - now apply sound_guarded.
  - apply sound_seq; [apply sound_guard|]. intros _. now apply sound_same.
  - apply sound_seq; [apply sound_guard|]. intros _. now apply sound_same.
  - apply sound_seq; [apply sound_guard|]. intros _ w S n s [].
  - apply sound_seq; [apply sound_guard|]. intros _ w S n s [].
  - apply sound_plain, sound_seq; [apply sound_when_empty, sound_load_cores|]. intros _.
    apply sound_same. intros w. now destruct (List.find _ _).
  - apply sound_plain, sound_seq; [apply sound_when_empty; now apply sound_guarded|]. intros _.
    apply sound_same. intros w. destruct (find _ _); [reflexivity|]. now destruct (List.find _ _).
  - apply sound_plain, T.
  - apply sound_plain, sound_seq; [apply T|]. intros [v|]; [apply sound_ret|apply sound_fail].
  - apply sound_plain, sound_seq; [apply sound_when_empty; now apply sound_guarded|]. intros _.
    apply sound_find_in, sound_fail.
  - apply sound_plain, sound_seq; [apply sound_when_empty; now apply sound_guarded|]. intros _.
    apply sound_find_in. destruct (existsb _ _); [apply sound_ret|apply sound_fail].
  - apply sound_plain, sound_seq; [apply sound_when_empty; now apply sound_guarded|]. intros _.
    apply sound_find_in, sound_fail.
  - apply sound_plain, sound_seq; [apply sound_when_empty; now apply sound_guarded|]. intros _.
    apply sound_find_in, sound_fail.
  - apply sound_plain, sound_seq; [apply sound_when_empty; now apply sound_guarded|]. intros _.
    apply sound_same. intros w. cbv zeta. now destruct (memo_find _ _ _).
  - apply sound_seq; [apply sound_guard|]. intros _. now apply sound_same.
  - apply sound_seq; [apply sound_guard|]. intros _. now apply sound_same.
  - apply sound_seq; [apply sound_guard|]. intros _. now apply sound_same.
  - apply sound_plain, sound_same. intros w. unfold mag_evict. now destruct (find _ _).
  - apply sound_plain, sound_same. intros w. unfold mag_evict_many. now destruct (evict_many _ _).
  - apply sound_plain, sound_same. intros w. unfold mag_read. now destruct (find _ _).
  - now apply sound_same.
  - apply sound_seq; [now apply sound_same|]. intros d. apply sound_seq; [now apply sound_same|]. intros _.
    destruct d; [|apply sound_ret]. apply sound_seq.
    + apply sound_seq; [apply sound_guard|]. intros _. now apply sound_same.
    + intros _. apply sound_seq; [apply sound_guard|]. intros _ w S n s [].
  - apply sound_same. intros w. unfold settings_set. now destruct (set n v (settings w)).
Qed.
(** In every history of loading, clearing and looking up, failing calls included, the
    shapes served have possible geometry and a supported family. *)
Theorem C52_impossible_shapes_are_never_served : forall files supported h p,
  shapes (cats (here p)) = [] -> Forall (fun op => no_foreign_shapes op = true) h ->
  sound_shapes supported (cats (here (after files supported h p))).
Proof.
  intros files supported h p E F.
  assert (S : sound_shapes supported (cats (here p))) by (intros n s I; rewrite E in I; destruct I).
  clear E. revert p S. unfold after. induction h as [|op h IH]; intros p S; simpl; [exact S|].
  apply Forall_cons_iff in F as [F1 F2]. apply IH; [exact F2|].
  pose proof (act_sound files supported op F1 (here p) S) as A.
  destruct op; try discriminate; cbn [run]; destruct (act files supported _ (here p)) as [w o]; exact A.
Qed.
Definition bad_shape : shape := {| sh_family := "T"; sh_possible := false; sh_payload := 0 |}.
Example C52_witness :
  let files := {| file_cores := []; file_cores_stock := None; file_materials := [];
                  file_shapes := [{| row_name := "E 1"; row_aliases := ["e1"];
                                     row_shape := {| sh_family := "E"; sh_possible := true; sh_payload := 1 |} |};
                                  {| row_name := "T 1"; row_aliases := []; row_shape := bad_shape |};
                                  {| row_name := "E 2"; row_aliases := [];
                                     row_shape := {| sh_family := "E"; sh_possible := true; sh_payload := 2 |} |}];
                  file_wires := []; file_bobbins := []; file_insulations := []; file_wire_materials := [] |} in
  snd (run files any_family (AFindShape "E 1") start) = Throw "INVALID_CORE_DATA" /\
  snd (find_shape files any_family "e1" (here (after files any_family [AFindShape "E 1"] start)))
  = Ok {| sh_family := "E"; sh_possible := true; sh_payload := 1 |}.
Proof. vm_compute. auto. Qed.
(** A core that loading refused is in the catalog all the same: the next lookup
    returns it. *)
Theorem C52_refused_core_is_served_refuted : exists rows c,
  co_fits c = false /\
  snd (find_core (core_files rows) "bad" (here start)) = Throw "INVALID_CORE_DATA" /\
  snd (find_core (core_files rows) "bad" (fst (find_core (core_files rows) "bad" (here start)))) = Ok c.
Proof.
  exists [{| co_name := Some "bad"; co_toroidal := false; co_fits := false; co_shape := inl "E 42";
             co_material := inl "N87"; co_payload := 0 |}].
  eexists. split; [|split; vm_compute; reflexivity]. reflexivity.
Qed.

(** * C53: loading a file twice *)
Definition maps_sorted (c : catalogs) : Prop :=
  sorted (materials c) /\ sorted (shapes c) /\ sorted (wires c) /\ sorted (bobbins c) /\
  sorted (insulations c) /\ sorted (wire_materials c).
Definition loads_named (op : api) : bool :=
  match op with
  | ALoadMaterials _ | ALoadShapes _ _ | ALoadWires _ | ALoadBobbins | ALoadInsulations
  | ALoadWireMaterials => true
  | _ => false
  end.
Lemma guarded_twice f w :
  f (f (cats w)) = f (cats w) ->
  let m := seq guard (fun _ => unless_internal (change_cats f)) in
  fst (m (fst (m w))) = fst (m w).
Proof.
  intros E. cbv zeta. unfold seq, guard. destruct (frozen w) eqn:Z; cbn [fst]; [now rewrite Z|].
  unfold unless_internal. destruct (add_internal w) eqn:A; cbn [fst]; [|now rewrite Z, A].
  unfold change_cats, change. cbn [fst].
  change (frozen (set_cats (f (cats w)) w)) with (frozen w). rewrite Z.
  change (add_internal (set_cats (f (cats w)) w)) with (add_internal w). rewrite A.
  unfold set_cats. cbn [fst cats]. rewrite E. reflexivity.
Qed.
Theorem C53_loading_twice_is_loading_once : forall files supported op w,
  loads_named op = true -> maps_sorted (cats w) ->
  let once := fst (act files supported op w) in
  fst (act files supported op once) = once.
Proof.
  intros files supported op w L (S1 & S2 & S3 & S4 & S5 & S6) once. unfold once. clear once.
  destruct op; try discriminate; cbn [act].
  2: {
    unfold load_shapes. set (rows := match f with Some r => r | None => file_shapes files end).
    unfold seq, guard. destruct (frozen w) eqn:Z; cbn [fst]; [now rewrite Z|].
    unfold unless_internal. destruct (add_internal w) eqn:A; cbn [fst]; [|now rewrite Z, A].
    rewrite (add_shapes_effect supported aliases rows w).
    match goal with |- context [frozen (set_cats ?c w)] => change (frozen (set_cats c w)) with (frozen w) end.
    rewrite Z.
    match goal with |- context [add_internal (set_cats ?c w)] =>
      change (add_internal (set_cats c w)) with (add_internal w) end.
    rewrite A, add_shapes_effect. unfold set_cats.
    cbn [settings cats with_shapes shapes families].
    rewrite insert_all_twice by assumption.
    assert (FF : stored_families supported (settings w) rows (stored_families supported (settings w) rows (families (cats w)))
                 = stored_families supported (settings w) rows (families (cats w))).
    { unfold stored_families at 1. apply families_fold_same. intros r I.
      unfold stored_families. now apply families_fold_incl. }
    rewrite FF. reflexivity. }
  all: apply guarded_twice;
    unfold with_materials, with_wires, with_bobbins, with_insulations, with_wire_materials;
    cbn [materials wires bobbins insulations wire_materials cores shapes families];
    rewrite insert_all_twice by assumption; reflexivity.
Qed.
(** Loading the cores again doubles the list, although every lookup answers as before. *)
Theorem C53_cores_are_doubled_refuted : exists rows,
  let once := fst (load_cores (core_files rows) None (here start)) in
  cores (cats once) = rows /\ rows <> [] /\
  cores (cats (fst (load_cores (core_files rows) None once))) = app rows rows.
Proof. exists [plain_core "c" 1]. vm_compute. repeat split. discriminate. Qed.
Theorem C53_core_lookups_are_stable : forall files f n w c,
  cores (cats w) <> [] -> snd (find_core files n w) = Ok c ->
  snd (find_core files n (fst (load_cores files f w))) = Ok c.
Proof.
  intros files f n w c NE H. unfold find_core in *.
  rewrite (seq_ok _ _ _ w tt) in H by now apply when_empty_skip.
  assert (E : exists l, cores (cats (fst (load_cores files f w))) = app (cores (cats w)) l).
  { unfold load_cores, seq, guard, reading. destruct (frozen w); [exists []; now rewrite app_nil_r|].
    match goal with |- context [add_cores ?r w] => destruct (add_cores_only r w) as (l & E & _) end.
    exists l. rewrite E. reflexivity. }
  destruct E as (l & E).
  set (w' := fst (load_cores files f w)) in *.
  rewrite (seq_ok _ _ _ w' tt).
  - rewrite E. destruct (List.find (has_name n) (cores (cats w))) as [c'|] eqn:F; [|discriminate].
    rewrite (find_app_some _ _ l _ F). exact H.
  - apply when_empty_skip. rewrite E. destruct (cores (cats w)); [contradiction|discriminate].
Qed.
Example C53_witness : maps_sorted (cats (here start)) /\
  let w := here (after (core_files [plain_core "c" 1]) any_family [ALoadCores None] start) in
  cores (cats w) <> [] /\ snd (find_core (core_files []) "c" w) = Ok (plain_core "c" 1).
Proof. split; [repeat split; constructor|]. vm_compute. split; [discriminate|reflexivity]. Qed.

(** * C54: preloading, then freezing *)
(** Once every catalog is loaded, freezing makes no difference to any lookup. *)
Theorem C54_lookups_work_while_frozen : forall files supported op w b,
  lookup op = true -> loaded (cats w) ->
  snd (act files supported op (set_frozen b w)) = snd (act files supported op w) /\
  snd (act files supported op w) <> Throw "frozen".
Proof.
  intros files supported op w b L (L1 & L2 & L3 & L4 & L5 & L6 & L7).
  assert (T : forall n w, shapes (cats w) <> [] -> exists r, forall b,
     try_find_shape files supported n (set_frozen b w) = (set_frozen b w, Ok r) /\
     try_find_shape files supported n w = (w, Ok r)).
  { intros n w' NE. unfold try_find_shape.
    exists (match find n (shapes (cats w')) with
            | Some v => Some v
            | None => option_map snd (List.find (fun kv => String.eqb n (without_spaces (fst kv))) (shapes (cats w')))
            end).
    intros b'. split; (erewrite seq_ok by (apply when_empty_skip; exact NE)); reflexivity. }
  destruct op; try discriminate; cbn [act]; unfold plain.
  - unfold find_core, seq. rewrite !when_empty_skip by assumption. cbn [set_frozen cats].
    destruct (List.find _ _); cbn; split; (reflexivity || discriminate).
  - unfold find_material, seq. rewrite !when_empty_skip by assumption. cbn [set_frozen cats].
    destruct (find _ _); [cbn; split; (reflexivity || discriminate)|].
    destruct (List.find _ _); cbn; split; (reflexivity || discriminate).
  - destruct (T n w L3) as (r & R). destruct (R b) as [R1 R2]. unfold seq. rewrite R1, R2. cbn.
    split; (reflexivity || discriminate).
  - destruct (T n w L3) as (r & R). destruct (R b) as [R1 R2]. unfold find_shape, seq. rewrite R1, R2.
    destruct r; cbn; split; (reflexivity || discriminate).
  - unfold find_wire, find_in, seq. rewrite !when_empty_skip by assumption. cbn [set_frozen cats].
    destruct (find _ _); cbn; split; (reflexivity || discriminate).
  - unfold find_bobbin, find_in, seq. rewrite !when_empty_skip by assumption. cbn [set_frozen cats].
    destruct (find _ _); [cbn; split; (reflexivity || discriminate)|].
    destruct (existsb _ _); cbn; split; (reflexivity || discriminate).
  - unfold find_insulation, find_in, seq. rewrite !when_empty_skip by assumption. cbn [set_frozen cats].
    destruct (find _ _); cbn; split; (reflexivity || discriminate).
  - unfold find_wire_material, find_in, seq. rewrite !when_empty_skip by assumption. cbn [set_frozen cats].
    destruct (find _ _); cbn; split; (reflexivity || discriminate).
  - unfold get_wires, seq. rewrite !when_empty_skip by assumption. cbn [set_frozen cats wires_memo]. cbv zeta.
    destruct (memo_find _ _ _); cbn; split; (reflexivity || discriminate).
  - unfold mag_read, seq. cbn [set_frozen magnetics]. destruct (find _ _); cbn; split; (reflexivity || discriminate).
Qed.
(** Loading all does not always load all: with the built-in data switched off the
    catalogs stay empty and every lookup is refused once frozen. *)
Definition no_data : user_data :=
  {| data_materials := []; data_shapes := []; data_wires := []; data_bobbins := [];
     data_insulations := []; data_wire_materials := [] |}.
Theorem C54_without_internal_data_refuted : exists p,
  p = after wire_files any_family [ALoadDatabases no_data false; AClearAll; ALoadAll; AFreeze true] start /\
  snd (run wire_files any_family (AFindWire "w1") p) = Throw "frozen".
Proof. eexists. split; [reflexivity|]. vm_compute. reflexivity. Qed.
Example C54_witness :
  let files := {| file_cores := [plain_core "c" 1]; file_cores_stock := None;
                  file_materials := [("N87", a_material 1)];
                  file_shapes := [{| row_name := "E 42"; row_aliases := [];
                                     row_shape := {| sh_family := "E"; sh_possible := true; sh_payload := 1 |} |}];
                  file_wires := [("w", round_wire 1)]; file_bobbins := [("b", 1)];
                  file_insulations := [("i", 1)]; file_wire_materials := [("copper", 1)] |} in
  let p := after files any_family [ALoadAll; AFreeze true] start in
  loaded (cats (here p)) /\ snd (run files any_family (AFindMaterial "N87") p) = Ok tt /\
  snd (run files any_family (AFindMaterial "N0") p) = Throw "CoreMaterialNotFound".
Proof. vm_compute. repeat split; discriminate. Qed.

Print Assumptions C20_nothing_changes_while_frozen.
Print Assumptions C20_changes_are_refused.
Print Assumptions C22_scope_restores.
Print Assumptions C22_moved_scope_restores.
Print Assumptions C22_nested_scopes_restore.
Print Assumptions C23_library_entries_win.
Print Assumptions C36_reset_drops_other_selections.
Print Assumptions C44_accepts_enumerators.
Print Assumptions C44_core_constraints.
Print Assumptions C52_impossible_shapes_are_never_served.
Print Assumptions C53_loading_twice_is_loading_once.
Print Assumptions C54_lookups_work_while_frozen.
