(** Lemmas about the catalog model. *)
From Coq Require Import List String Bool Arith ZArith QArith Lia.
From Verif Require Import Base TextModel StrMap SettingsModel CatalogModel.
Import ListNotations.
Open Scope nat_scope.
Open Scope string_scope.

(** * Calls made on frozen databases *)
Definition keeps (w w' : world) : Prop :=
  cats w' = cats w /\ magnetics w' = magnetics w /\ frozen w' = frozen w.
Lemma keeps_refl w : keeps w w.
Proof. repeat split. Qed.
Lemma keeps_trans a b c : keeps a b -> keeps b c -> keeps a c.
Proof. unfold keeps. intuition congruence. Qed.

Definition harmless {A} (m : call A) : Prop := forall w, frozen w = true -> keeps w (fst (m w)).
Lemma harmless_ret {A} (a : A) : harmless (ret a).
Proof. intros w _. apply keeps_refl. Qed.
Lemma harmless_fail {A} e : harmless (@fail A e).
Proof. intros w _. apply keeps_refl. Qed.
Lemma harmless_reading {A} (f : world -> A) : harmless (reading f).
Proof. intros w _. apply keeps_refl. Qed.
Lemma harmless_seq {A B} (m : call A) (f : A -> call B) :
  harmless m -> (forall a, harmless (f a)) -> harmless (seq m f).
Proof.
  intros M F w Z. specialize (M w Z). unfold seq.
  destruct (m w) as [w' [a| | |]]; cbn [fst] in *; auto.
  assert (Z' : frozen w' = true) by (destruct M as (_ & _ & ->); exact Z).
  eapply keeps_trans; [exact M|]. now apply F.
Qed.
Lemma guard_frozen {A} (f : unit -> call A) w : frozen w = true -> seq guard f w = (w, Throw "frozen").
Proof. intros Z. unfold seq, guard. now rewrite Z. Qed.
Lemma harmless_guard {A} (f : unit -> call A) : harmless (seq guard f).
Proof. intros w Z. rewrite guard_frozen by exact Z. apply keeps_refl. Qed.
Lemma harmless_when_empty {A} (g : catalogs -> list A) m : harmless m -> harmless (when_empty g m).
Proof. intros M w Z. unfold when_empty. destruct (g (cats w)); [now apply M|apply keeps_refl]. Qed.
Lemma harmless_plain {A} (m : call A) : harmless m -> harmless (plain m).
Proof. intros M. apply harmless_seq; [exact M|]. intros a. apply harmless_ret. Qed.
Lemma harmless_find_in {T} g n (m : call T) : harmless m -> harmless (find_in g n m).
Proof. intros M w Z. unfold find_in. destruct (find n (g (cats w))); [apply keeps_refl|now apply M]. Qed.

Definition lifts_freeze (op : api) : bool := match op with AFreeze false => true | _ => false end.
Definition evicts (op : api) : bool :=
  match op with AMagEvict _ | AMagEvictMany _ => true | _ => false end.
Definition ends_scope (op : api) : bool :=
  match op with AScopeEnd _ | AScopeAssign _ _ => true | _ => false end.

Lemma act_harmless files supported op :
  lifts_freeze op = false -> evicts op = false -> harmless (act files supported op).
Proof.
  intros L E. destruct op; cbn [act]; try discriminate; try apply harmless_guard; try apply harmless_ret.
  - destruct b; [|discriminate]. intros w Z. unfold change, keeps. simpl. now rewrite Z.
  - apply harmless_plain, harmless_seq; [apply harmless_when_empty, harmless_guard|].
    intros _ w Z. destruct (List.find (has_name n) (cores (cats w))); apply keeps_refl.
  - apply harmless_plain, harmless_seq; [apply harmless_when_empty, harmless_guard|].
    intros _ w Z. destruct (find _ _); [apply keeps_refl|]. destruct (List.find _ _); apply keeps_refl.
  - apply harmless_plain, harmless_seq; [apply harmless_when_empty, harmless_guard|].
    intros _. apply harmless_reading.
  - apply harmless_plain, harmless_seq.
    + apply harmless_seq; [apply harmless_when_empty, harmless_guard|]. intros _. apply harmless_reading.
    + intros [v|]; [apply harmless_ret|apply harmless_fail].
  - apply harmless_plain, harmless_seq; [apply harmless_when_empty, harmless_guard|].
    intros _. apply harmless_find_in, harmless_fail.
  - apply harmless_plain, harmless_seq; [apply harmless_when_empty, harmless_guard|].
    intros _. apply harmless_find_in. destruct (existsb _ _); [apply harmless_ret|apply harmless_fail].
  - apply harmless_plain, harmless_seq; [apply harmless_when_empty, harmless_guard|].
    intros _. apply harmless_find_in, harmless_fail.
  - apply harmless_plain, harmless_seq; [apply harmless_when_empty, harmless_guard|].
    intros _. apply harmless_find_in, harmless_fail.
  - apply harmless_plain, harmless_seq; [apply harmless_when_empty, harmless_guard|].
    intros _ w Z. cbv zeta. destruct (memo_find _ _ _); repeat split.
  - apply harmless_plain. intros w Z. unfold mag_read. destruct (find _ _); apply keeps_refl.
  - intros w Z. repeat split.
  - apply harmless_seq; [apply harmless_reading|]. intros d.
    apply harmless_seq; [intros w Z; repeat split|]. intros _.
    destruct d; [apply harmless_seq; [apply harmless_guard|intros _; apply harmless_guard]|apply harmless_ret].
  - intros w Z. unfold settings_set. destruct (set n v (settings w)); repeat split.
Qed.
Lemma run_frozen files supported op p :
  lifts_freeze op = false -> evicts op = false -> ends_scope op = false ->
  frozen (here p) = true -> keeps (here p) (here (fst (run files supported op p))).
Proof.
  intros L E S Z. pose proof (act_harmless files supported op L E (here p) Z) as A.
  destruct op; try discriminate; cbn [run] in *;
    try (destruct (act files supported _ (here p)) as [w o]; exact A).
  - unfold scope_begin. destruct ctx as [l|]; [|apply keeps_refl].
    destruct (lib_empty l); [apply keeps_refl|]. rewrite Z. apply keeps_refl.
  - apply keeps_refl.
Qed.

(** * Lookups do not touch catalogs that are loaded *)
Definition loaded (c : catalogs) : Prop :=
  cores c <> [] /\ materials c <> [] /\ shapes c <> [] /\ wires c <> [] /\ bobbins c <> [] /\
  insulations c <> [] /\ wire_materials c <> [].
Lemma when_empty_skip {A} (g : catalogs -> list A) m w : g (cats w) <> [] -> when_empty g m w = (w, Ok tt).
Proof. intros N. unfold when_empty. now destruct (g (cats w)). Qed.
Lemma seq_ok {A B} (m : call A) (f : A -> call B) w w' a : m w = (w', Ok a) -> seq m f w = f a w'.
Proof. intros E. unfold seq. now rewrite E. Qed.

(** * Scope variables *)
Lemma find_put_same x s l : find x (put_scope x s l) = Some s.
Proof. unfold put_scope. simpl. now rewrite String.eqb_refl. Qed.
Lemma find_drop_other x y (l : list (string * scope)) : y <> x -> find y (drop_scope x l) = find y l.
Proof.
  intros N. unfold drop_scope. induction l as [|[k s] l IH]; simpl; [reflexivity|].
  destruct (String.eqb k x) eqn:E; simpl.
  - apply String.eqb_eq in E. subst k. apply String.eqb_neq in N. now rewrite N.
  - destruct (String.eqb y k); [reflexivity|exact IH].
Qed.
Lemma find_put_other x y s l : y <> x -> find y (put_scope x s l) = find y l.
Proof.
  intros N. unfold put_scope. simpl. pose proof N as N'. apply String.eqb_neq in N'. rewrite N'.
  now apply find_drop_other.
Qed.

Definition mentions (x : string) (op : api) : bool :=
  match op with
  | AScopeBegin y _ | AScopeEnd y => String.eqb x y
  | AScopeMove y z | AScopeAssign y z => String.eqb x y || String.eqb x z
  | _ => false
  end.
Lemma run_scope_var files supported op x p :
  mentions x op = false -> scope_of x (fst (run files supported op p)) = scope_of x p.
Proof.
  intros M. unfold scope_of.
  destruct op; cbn [run mentions] in *;
    try (destruct (act files supported _ (here p)) as [w o]; reflexivity).
  - apply String.eqb_neq in M. unfold scope_begin. destruct ctx as [l|].
    + destruct (lib_empty l); [cbn [fst scopes]; now rewrite find_put_other|].
      destruct (frozen (here p)); [reflexivity|]. cbn [fst scopes]. now rewrite find_put_other.
    + cbn [fst scopes]. now rewrite find_put_other.
  - apply String.eqb_neq in M. unfold scope_end. cbn [fst scopes]. rewrite find_drop_other by exact M.
    unfold restore. now destruct (match find x0 (scopes p) with Some s => s | None => None end),
      (scope_of x0 p).
  - apply orb_false_iff in M as [M1 M2]. apply String.eqb_neq in M1, M2.
    unfold scope_move. cbn [fst scopes]. now rewrite !find_put_other.
  - apply orb_false_iff in M as [M1 M2]. apply String.eqb_neq in M1, M2.
    unfold scope_assign. destruct (String.eqb x0 y); [reflexivity|]. cbn [fst scopes].
    rewrite !find_put_other by assumption. unfold restore. now destruct (scope_of y p).
Qed.
Lemma after_scope_var files supported h x : forall p,
  Forall (fun op => mentions x op = false) h ->
  scope_of x (after files supported h p) = scope_of x p.
Proof.
  unfold after. induction h as [|op h IH]; intros p F; [reflexivity|]. simpl.
  apply Forall_cons_iff in F as [F1 F2]. rewrite IH by exact F2. now apply run_scope_var.
Qed.
Lemma after_app files supported h1 h2 p :
  after files supported (h1 ++ h2)%list p = after files supported h2 (after files supported h1 p).
Proof. unfold after. apply fold_left_app. Qed.

(** * What loading changes *)
Lemma add_cores_only rows : forall w, exists l,
  fst (add_cores rows w) = set_cats (with_cores (app (cores (cats w)) l) (cats w)) w /\
  incl l rows.
Proof.
  induction rows as [|r rows IH]; intros w.
  - exists []. split; [|apply incl_refl]. simpl. destruct w as [? ? c]; destruct c; simpl.
    now rewrite app_nil_r.
  - cbn [add_cores]. unfold seq, reading. destruct (kept (co_toroidal r) (settings w)).
    + unfold change_cats, change. destruct (co_fits r).
      * destruct (IH (set_cats (with_cores (cores (cats w) ++ [r]) (cats w)) w)) as (l & E & I).
        exists (r :: l). rewrite E. split; [|intros y [<-|H]; [now left|right; auto]].
        simpl. now rewrite <- app_assoc.
      * exists [r]. split; [reflexivity|]. intros y [<-|[]]. now left.
    + destruct (IH w) as (l & E & I). exists l. split; [exact E|]. intros y H. right. auto.
Qed.
Lemma add_shapes_only supported a rows : forall w, exists m f,
  fst (add_shapes supported a rows w) = set_cats (with_shapes m f (cats w)) w.
Proof.
  induction rows as [|r rows IH]; intros w.
  - exists (shapes (cats w)), (families (cats w)). destruct w as [? ? c]; now destruct c.
  - cbn [add_shapes]. cbv zeta. destruct (negb (sh_possible (row_shape r))).
    { exists (shapes (cats w)), (families (cats w)). destruct w as [? ? c]; now destruct c. }
    destruct (negb (supported (sh_family (row_shape r)))); [apply IH|].
    unfold seq, reading. destruct (kept _ _); [|apply IH].
    unfold change_cats, change.
    edestruct IH as (m & f & E). exists m, f. rewrite E. reflexivity.
Qed.
Lemma same_cats c w : c = cats w -> set_cats c w = w.
Proof. intros ->. now destruct w. Qed.

Definition lookup (op : api) : bool :=
  match op with
  | AFindCore _ | AFindMaterial _ | ATryFindShape _ | AFindShape _ | AFindWire _ | AFindBobbin _
  | AFindInsulation _ | AFindWireMaterial _ | AGetWires _ _ | AMagRead _ => true
  | _ => false
  end.
(** A lookup leaves the catalogs alone or fills the one it needs, if empty. *)
Inductive fills (c : catalogs) : catalogs -> Prop :=
| fills_none : fills c c
| fills_cores l : cores c = [] -> fills c (with_cores l c)
| fills_materials m : materials c = [] -> fills c (with_materials m c)
| fills_shapes m f : shapes c = [] -> fills c (with_shapes m f c)
| fills_wires m : wires c = [] -> fills c (with_wires m c)
| fills_bobbins m : bobbins c = [] -> fills c (with_bobbins m c)
| fills_insulations m : insulations c = [] -> fills c (with_insulations m c)
| fills_wire_materials m : wire_materials c = [] -> fills c (with_wire_materials m c).

Lemma fills_seq {A} (m : call unit) (k : unit -> call A) w :
  fills (cats w) (cats (fst (m w))) -> (forall w' u, cats (fst (k u w')) = cats w') ->
  fills (cats w) (cats (fst (seq m k w))).
Proof.
  intros F K. unfold seq. destruct (m w) as [w' [u| | |]]; cbn [fst] in *; auto. now rewrite K.
Qed.
Lemma cats_when_empty {A} (g : catalogs -> list A) m w :
  (g (cats w) = [] -> fills (cats w) (cats (fst (m w)))) -> fills (cats w) (cats (fst (when_empty g m w))).
Proof. intros F. unfold when_empty. destruct (g (cats w)); [now apply F|constructor]. Qed.
Lemma cats_plain {A} (m : call A) w : cats (fst (plain m w)) = cats (fst (m w)).
Proof. unfold plain, seq. now destruct (m w) as [w' [a| | |]]. Qed.
Lemma cats_find_in {T} (g : catalogs -> smap T) n m w :
  (forall w, cats (fst (m w)) = cats w) -> cats (fst (find_in g n m w)) = cats w.
Proof. intros M. unfold find_in. destruct (find n (g (cats w))); auto. Qed.

Ltac guarded := unfold seq, guard; match goal with |- context [frozen ?w] => destruct (frozen w) end;
  [constructor|]; unfold unless_internal; try (match goal with |- context [add_internal ?w] =>
  destruct (add_internal w) end; [|constructor]).
Lemma lookup_fills files supported op w :
  lookup op = true -> fills (cats w) (cats (fst (act files supported op w))).
Proof.
  intros L. destruct op; try discriminate; cbn [act]; rewrite cats_plain.
  - apply fills_seq; [|intros; now destruct (List.find _ _)].
    apply cats_when_empty. intros E. unfold load_cores. guarded.
    cbn [reading].
    match goal with |- context [add_cores ?r w] => destruct (add_cores_only r w) as (l & Q & _) end.
    rewrite Q. simpl. now apply fills_cores.
  - apply fills_seq; [|intros; destruct (find _ _); [reflexivity|now destruct (List.find _ _)]].
    apply cats_when_empty. intros E. unfold load_materials. guarded. simpl. now apply fills_materials.
  - apply fills_seq; [|reflexivity]. apply cats_when_empty. intros E. unfold load_shapes. guarded.
    match goal with |- context [add_shapes ?s ?a ?r w] =>
      destruct (add_shapes_only s a r w) as (m & f & Q) end.
    rewrite Q. simpl. now apply fills_shapes.
  - unfold find_shape, seq at 1. 
    assert (F : fills (cats w) (cats (fst (try_find_shape files supported n w)))).
    { apply fills_seq; [|reflexivity]. apply cats_when_empty. intros E. unfold load_shapes. guarded.
      match goal with |- context [add_shapes ?s ?a ?r w] =>
        destruct (add_shapes_only s a r w) as (m & f & Q) end.
      rewrite Q. simpl. now apply fills_shapes. }
    destruct (try_find_shape files supported n w) as [w' [[v|]| | |]]; exact F.
  - apply fills_seq; [|intros; now apply cats_find_in].
    apply cats_when_empty. intros E. unfold load_wires. guarded. simpl. now apply fills_wires.
  - apply fills_seq; [|intros; apply cats_find_in; now destruct (existsb _ _)].
    apply cats_when_empty. intros E. unfold load_bobbins. guarded. simpl. now apply fills_bobbins.
  - apply fills_seq; [|intros; now apply cats_find_in].
    apply cats_when_empty. intros E. unfold load_insulations. guarded. simpl. now apply fills_insulations.
  - apply fills_seq; [|intros; now apply cats_find_in].
    apply cats_when_empty. intros E. unfold load_wire_materials. guarded. simpl. now apply fills_wire_materials.
  - apply fills_seq; [|intros; cbv zeta; now destruct (memo_find _ _ _)].
    apply cats_when_empty. intros E. unfold load_wires. guarded. simpl. now apply fills_wires.
  - unfold mag_read. destruct (find _ _); constructor.
Qed.

(** Lookups keep what a catalog that is not empty holds. *)
Definition untouched (c c' : catalogs) : Prop :=
  (cores c <> [] -> cores c' = cores c) /\ (materials c <> [] -> materials c' = materials c) /\
  (shapes c <> [] -> shapes c' = shapes c /\ families c' = families c) /\
  (wires c <> [] -> wires c' = wires c) /\
  (bobbins c <> [] -> bobbins c' = bobbins c) /\ (insulations c <> [] -> insulations c' = insulations c) /\
  (wire_materials c <> [] -> wire_materials c' = wire_materials c).
Lemma fills_untouched c c' : fills c c' -> untouched c c'.
Proof. intros [ | | | | | | | ]; unfold untouched; simpl; intuition congruence. Qed.
Lemma untouched_trans a b c : untouched a b -> untouched b c -> untouched a c.
Proof.
  unfold untouched. intros (A1 & A2 & A3 & A4 & A5 & A6 & A7) (B1 & B2 & B3 & B4 & B5 & B6 & B7).
  repeat apply conj; intros N.
  - rewrite B1; rewrite A1; auto.
  - rewrite B2; rewrite A2; auto.
  - destruct (A3 N) as [E1 E2]. destruct B3 as [E3 E4]; [now rewrite E1|]. split; congruence.
  - rewrite B4; rewrite A4; auto.
  - rewrite B5; rewrite A5; auto.
  - rewrite B6; rewrite A6; auto.
  - rewrite B7; rewrite A7; auto.
Qed.
Lemma run_lookup files supported op p : lookup op = true ->
  here (fst (run files supported op p)) = fst (act files supported op (here p)).
Proof. intros L. destruct op; try discriminate; cbn [run]; now destruct (act _ _ _ _). Qed.
Lemma after_lookups files supported h : forall p,
  Forall (fun op => lookup op = true) h ->
  untouched (cats (here p)) (cats (here (after files supported h p))).
Proof.
  unfold after. induction h as [|op h IH]; intros p F; simpl.
  - apply fills_untouched, fills_none.
  - apply Forall_cons_iff in F as [F1 F2]. eapply untouched_trans; [|apply IH; exact F2].
    rewrite run_lookup by exact F1. now apply fills_untouched, lookup_fills.
Qed.

(** * Loading twice *)
Section Twice.
  Context {T : Type}.
  Fixpoint find_last (k : string) (l : list (string * T)) : option T :=
    match l with
    | [] => None
    | (k', v) :: r => match find_last k r with
                      | Some x => Some x
                      | None => if String.eqb k k' then Some v else None
                      end
    end.
  Lemma find_insert_all_last k l : forall m : smap T,
    find k (insert_all l m) = match find_last k l with Some v => Some v | None => find k m end.
  Proof.
    unfold insert_all. induction l as [|[k' v'] l IH]; intros m; simpl; [reflexivity|].
    rewrite IH. destruct (find_last k l); [reflexivity|]. rewrite find_insert.
    now destruct (String.eqb k k').
  Qed.
  Lemma insert_all_twice l (m : smap T) : sorted m ->
    insert_all l (insert_all l m) = insert_all l m.
  Proof.
    intros S. apply smap_ext; [now apply insert_all_sorted, insert_all_sorted|now apply insert_all_sorted|].
    intros k. rewrite !find_insert_all_last. now destruct (find_last k l).
  Qed.
End Twice.
Lemma find_app_some {A} (f : A -> bool) l1 l2 x : List.find f l1 = Some x -> List.find f (app l1 l2) = Some x.
Proof. induction l1 as [|a l IH]; simpl; [discriminate|]. destruct (f a); auto. Qed.
Lemma find_app_none {A} (f : A -> bool) l1 l2 : List.find f l1 = None -> List.find f (app l1 l2) = List.find f l2.
Proof. induction l1 as [|a l IH]; simpl; [reflexivity|]. destruct (f a); [discriminate|auto]. Qed.

(** What [add_shapes] stores, and whether it stops at an impossible shape. *)
Section ShapeRows.
  Context (supported : string -> bool) (aliases : bool) (s : store).
  Definition stored_row (r : shape_row) : bool :=
    supported (sh_family (row_shape r)) && kept (String.eqb (sh_family (row_shape r)) "T") s.
  Fixpoint good_rows (rows : list shape_row) : list shape_row :=
    match rows with
    | [] => []
    | r :: rest => if sh_possible (row_shape r) then r :: good_rows rest else []
    end.
  Definition row_names (r : shape_row) : list string :=
    row_name r :: (if aliases then row_aliases r else []).
  Definition row_entries (r : shape_row) : list (string * shape) :=
    map (fun n => (n, row_shape r)) (row_names r).
  Definition stored (rows : list shape_row) : list (string * shape) :=
    List.concat (map row_entries (filter stored_row (good_rows rows))).
  Definition stored_families (rows : list shape_row) (f : list string) : list string :=
    fold_left (fun f r => add_family (sh_family (row_shape r)) f) (filter stored_row (good_rows rows)) f.
End ShapeRows.
Lemma insert_all_app {T} a b (m : smap T) : insert_all (app a b) m = insert_all b (insert_all a m).
Proof. unfold insert_all. apply fold_left_app. Qed.
Lemma add_shapes_effect supported a rows : forall w,
  fst (add_shapes supported a rows w)
  = set_cats (with_shapes (insert_all (stored supported a (settings w) rows) (shapes (cats w)))
                          (stored_families supported (settings w) rows (families (cats w))) (cats w)) w.
Proof.
  induction rows as [|r rows IH]; intros w.
  - destruct w as [? ? c]; now destruct c.
  - cbn [add_shapes]. cbv zeta. unfold stored, stored_families. cbn [good_rows].
    destruct (sh_possible (row_shape r)) eqn:P; cbn [negb].
    2: { destruct w as [? ? c]; now destruct c. }
    cbn [filter].
    assert (SR : stored_row supported (settings w) r = supported (sh_family (row_shape r))
                 && kept (String.eqb (sh_family (row_shape r)) "T") (settings w)) by reflexivity.
    rewrite !SR. clear SR.
    destruct (supported (sh_family (row_shape r))) eqn:S; cbn [negb andb]; [|apply IH].
    unfold seq, reading.
    destruct (kept (String.eqb (sh_family (row_shape r)) "T") (settings w)) eqn:K; [|apply IH].
    unfold change_cats, change. rewrite IH. cbn [map List.concat fold_left].
    rewrite insert_all_app. reflexivity.
Qed.
Lemma add_family_in f l : In f l -> add_family f l = l.
Proof.
  intros I. unfold add_family. assert (E : existsb (String.eqb f) l = true).
  { apply existsb_exists. exists f. split; [exact I|apply String.eqb_refl]. }
  now rewrite E.
Qed.
Lemma add_family_incl f l : incl l (add_family f l) /\ In f (add_family f l).
Proof.
  unfold add_family. destruct (existsb (String.eqb f) l) eqn:E.
  - split; [apply incl_refl|]. apply existsb_exists in E as (x & I & Q). apply String.eqb_eq in Q. now subst.
  - split; [apply incl_appl, incl_refl|apply in_or_app; right; now left].
Qed.
Lemma families_fold_incl l : forall f, incl f (fold_left (fun f r => add_family (sh_family (row_shape r)) f) l f)
  /\ forall r, In r l -> In (sh_family (row_shape r))
               (fold_left (fun f r => add_family (sh_family (row_shape r)) f) l f).
Proof.
  induction l as [|r l IH]; intros f; simpl; [split; [apply incl_refl|tauto]|].
  destruct (IH (add_family (sh_family (row_shape r)) f)) as [A B].
  destruct (add_family_incl (sh_family (row_shape r)) f) as [C D].
  split; [eapply incl_tran; eauto|]. intros x [<-|I]; auto.
Qed.
Lemma families_fold_same l : forall f, (forall r, In r l -> In (sh_family (row_shape r)) f) ->
  fold_left (fun f r => add_family (sh_family (row_shape r)) f) l f = f.
Proof.
  induction l as [|r l IH]; intros f H; simpl; [reflexivity|].
  rewrite add_family_in by (apply H; now left). apply IH. intros; apply H; now right.
Qed.

Lemma find_impossible_stored supported a s rows n x :
  In (n, x) (stored supported a s rows) -> sh_possible x = true /\ supported (sh_family x) = true.
Proof.
  unfold stored. intros I. apply in_concat in I as (l & I1 & I2). apply in_map_iff in I1 as (r & <- & I1).
  apply filter_In in I1 as [I1 K]. unfold row_entries in I2. apply in_map_iff in I2 as (k & E & _).
  injection E as _ <-. unfold stored_row in K. apply andb_prop in K as [K _]. split; [|exact K].
  clear -I1. induction rows as [|q rows IH]; cbn [good_rows] in *; [destruct I1|].
  destruct (sh_possible (row_shape q)) eqn:P; [|destruct I1]. destruct I1 as [<-|I1]; auto.
Qed.

Lemma settings_reset_eq w :
  settings_reset w
  = (let w1 := set_settings (reset_members (settings w)) w in
     if reset_drops_catalogs (settings w) then seq clear_cores (fun _ => clear_shapes) w1 else (w1, Ok tt)).
Proof. unfold settings_reset, seq, reading, change. now destruct (reset_drops_catalogs (settings w)). Qed.
