(** * PropVariables: variables of the sheet, scopes, evaluation of the sheet (C22, C26, C27, C52). *)
From Coq Require Import Permutation.
From Verif Require Import Base BaseProofs Csvp SourceCode Ast AstProofs AstLexer AstParser Eval EvalSpec EvalRounds ParsedPlain Options CellParser PropCell Sheet SheetSpec SheetProofs SheetProofs2 SheetProofs3 PropSheet.

(** the formula =name at a position evaluates to the reference with this text *)
Definition reads (sc : scope) (pos : address) (name text : str) : Prop :=
  forall ord fuel, is_order ord -> 1 < fuel -> ast_eval fuel ord sc (Some pos) (NRef name) = Ok (NRef text).

Lemma sheet_scope_assoc p ext name : NoDup (map fst (variables (pr_scope p))) -> NoDup (map fst ext) ->
  assoc name (variables (sheet_scope p ext)) =
    match assoc name (variables (pr_scope p)) with
    | Some v => Some v
    | None => match assoc name (sheet_variables (pr_sheet p)) with Some v => Some v | None => assoc name ext end
    end.
Proof.
  intros H1 H2. unfold sheet_scope. rewrite merge_variables_assoc; [|apply merge_variables_nodup|exact H2].
  rewrite merge_variables_assoc by (auto using sheet_variables_nodup). destruct (assoc name (variables (pr_scope p))); reflexivity.
Qed.

(** ** C22 *)
Section C22.
  Variables (p p1 : program) (ext : list (str * node)).
  Hypothesis H1 : NoDup (map fst (variables (pr_scope p))).
  Hypothesis H2 : NoDup (map fst ext).
  Hypothesis Hf : fills_expanded (pr_sheet p) = false.
  Hypothesis He : module_eval_fills p = Ok p1.
  Notation rows := (sheet_rows (pr_sheet p)).
  Notation left := (room rows).
  Lemma c22_sheet : eval_fills (pr_sheet p) = Some (pr_sheet p1) /\ pr_scope p1 = pr_scope p.
  Proof. unfold module_eval_fills in He. destruct (eval_fills (pr_sheet p)); [|discriminate]. injection He as <-. auto. Qed.
  Lemma c22_value name t g r : assoc name (variables (pr_scope p)) = None ->
    last_binding (pr_sheet p) name t g -> nth_error rows (target_row t) = Some r -> 0 < copies left r ->
    assoc name (variables (sheet_scope p1 ext)) =
      Some (value_at (move t (offset left rows (target_row t) + (copies left r - 1))) (started (offset left rows (target_row t)) g) name).
  Proof.
    intros Hn Hl Hr Hc. destruct c22_sheet as [E S1]. rewrite sheet_scope_assoc; [|rewrite S1; exact H1|exact H2]. rewrite S1, Hn.
    rewrite (sheet_variables_last _ _ _ _ (last_binding_expanded _ _ E Hf _ _ _ _ Hl Hr Hc)). reflexivity.
  Qed.
End C22.
Lemma binds_fill s name t g r : binds s name t g -> nth_error (sheet_rows s) (target_row t) = Some r -> g = row_fill r.
Proof. destruct t as [y|x y]; cbn [binds target_row]; [intros [r' [A [_ ->]]] B|intros [r' [c [A [_ [_ ->]]]]] B]; congruence. Qed.

(** A cell or row variable outside a fill is that cell or row, wherever it is read. ([offset ..] is where the row is in the
    output.) The text of the reference must not itself be the name of a variable. *)
Theorem C22_outside_fill : forall p p1 ext name t r pos,
  NoDup (map fst (variables (pr_scope p))) -> NoDup (map fst ext) -> fills_expanded (pr_sheet p) = false -> module_eval_fills p = Ok p1 ->
  assoc name (variables (pr_scope p)) = None ->
  let rows := sheet_rows (pr_sheet p) in
  forall i, match t with TRow y => y | TCell _ y => y end = i ->
  last_binding (pr_sheet p) name t (row_fill r) -> nth_error rows i = Some r -> row_fill r = None ->
  let place := offset (room rows) rows i in
  exists text,
    match t with TCell x _ => names_cell text x place | TRow _ => names_rows text place place end
    /\ (assoc text (variables (sheet_scope p1 ext)) = None -> reads (sheet_scope p1 ext) pos name text).
Proof.
  intros p p1 ext name t r pos H1 H2 Hf He Hn rows i <- Hl Hr Hg place. change (match t with TRow y => y | TCell _ y => y end) with (target_row t) in *.
  assert (Hc : copies (room rows) r = 1) by (unfold copies; rewrite Hg; reflexivity).
  pose proof (c22_value p p1 ext H1 H2 Hf He name t _ r Hn Hl Hr ltac:(fold rows; lia)) as V. fold rows in V. rewrite Hc, Hg in V. cbn [started option_map] in V.
  fold place in V. rewrite Nat.sub_diag, Nat.add_0_r in V.
  destruct t as [y|x y]; cbn [move value_at] in V.
  - exists (show_row place). split; [apply show_row_spec|]. intros Ht ord fuel Ho Hfu. apply eval_reference; auto.
    unfold variable_node. rewrite V. reflexivity.
  - exists (show_address {| addr_x := x; addr_y := place |}). split; [apply show_address_spec|]. intros Ht ord fuel Ho Hfu. apply eval_reference; auto.
    unfold variable_node. rewrite V. reflexivity.
Qed.
Print Assumptions C22_outside_fill.
(** In a fill: the cell of the reader's own row when the reader is one of the rows of the fill, the whole range when not.
    Partial: the fill must end within the first 1000 rows and, if unbounded, be the last thing of the sheet (see C25). *)
Theorem C22_inside_fill_partial : forall p p1 ext name t r pos,
  NoDup (map fst (variables (pr_scope p))) -> NoDup (map fst ext) -> fills_expanded (pr_sheet p) = false -> module_eval_fills p = Ok p1 ->
  assoc name (variables (pr_scope p)) = None ->
  let rows := sheet_rows (pr_sheet p) in
  forall i, match t with TRow y => y | TCell _ y => y end = i ->
  last_binding (pr_sheet p) name t (row_fill r) -> nth_error rows i = Some r -> row_fill r <> None ->
  let left := room rows in let first := offset left rows i in let after := first + copies left r in
  0 < copies left r -> after <= 1000 -> (unbounded r -> after = length (sheet_rows (pr_sheet p1))) ->
  exists text,
    match t with
    | TCell x _ => (first <= addr_y pos < after /\ names_cell text x (addr_y pos))
                   \/ (~ first <= addr_y pos < after /\ names_column_part text x first (after - 1))
    | TRow _ => (first <= addr_y pos < after /\ names_rows text (addr_y pos) (addr_y pos))
                \/ (~ first <= addr_y pos < after /\ names_rows text first (after - 1))
    end
    /\ (assoc text (variables (sheet_scope p1 ext)) = None -> reads (sheet_scope p1 ext) pos name text).
Proof.
  intros p p1 ext name t r pos H1 H2 Hf He Hn rows i <- Hl Hr Hg left first after Hc Ha Hu. change (match t with TRow y => y | TCell _ y => y end) with (target_row t) in *.
  pose proof (c22_value p p1 ext H1 H2 Hf He name t _ r Hn Hl Hr Hc) as V. fold rows left first in V.
  destruct (c22_sheet p p1 He) as [E _]. destruct (row_fill r) as [f0|] eqn:Er; [|contradiction]. cbn [started option_map] in V.
  set (f := {| fill_amount := fill_amount f0; start_row := first |}) in *.
  destruct (C23_expansion _ _ Hf E) as [_ [_ [X _]]]. destruct (X _ r 0 Hr Hc) as [c [N [_ [_ [_ C]]]]]. fold rows left first in N, C. rewrite Er in C. cbn [option_map] in C. fold f in C.
  destruct (C25_extent_partial _ _ (target_row t) r Hf E Hr Hc Ha Hu (first + 0) c f ltac:(unfold left, rows in *; lia) N C) as [I R].
  cbn zeta in I, R. fold rows left in I, R. fold first in I, R. fold after in I, R.
  assert (LR : fill_last_row f = after - 1).
  { clear -R. destruct R as [a [b [Eq [D1 [V1 [D2 V2]]]]]]. unfold show_row_range in Eq.
    assert (a = row_name (start_row f) /\ b = row_name (fill_last_row f)) as [-> ->].
    { clear -Eq D1. unfold row_name in *. pose proof (dec_all_digits (N.of_nat (S (start_row f)))) as D.
      assert (Y : forall u v u' v', forallb is_ascii_digit u = true -> forallb is_ascii_digit u' = true -> u ++ [c_colon] ++ v = u' ++ [c_colon] ++ v' -> u = u' /\ v = v').
      { induction u as [|k u IH]; intros v [|k' u'] v' A A' Q; cbn in Q.
        - injection Q as Q. auto.
        - injection Q as <- Q. cbn in A'. discriminate.
        - injection Q as -> Q. cbn in A. discriminate.
        - injection Q as -> Q. cbn [forallb] in A, A'. apply andb_true_iff in A as [_ A]. apply andb_true_iff in A' as [_ A'].
          destruct (IH v u' v' A A' Q) as [-> ->]. auto. }
      assert (Z : forall q, all_digits q = true -> forallb is_ascii_digit q = true) by (intros q Hq; unfold all_digits in Hq; destruct q; [reflexivity|exact Hq]).
      destruct (Y _ _ _ _ (Z _ D) (Z _ D1) Eq) as [-> ->]. auto. }
    unfold row_name in V2. rewrite dec_value in V2. lia. }
  assert (SR : start_row f = first) by reflexivity.
  destruct t as [y|x y]; cbn [move value_at target_row] in *.
  - destruct (fill_contains f pos) eqn:FC.
    + exists (show_row (addr_y pos)). split; [left; split; [apply I; exact FC|apply show_row_spec]|]. intros Ht ord fuel Ho Hfu. apply eval_reference; auto.
      unfold variable_node. rewrite V. cbn [into_ast]. rewrite FC. reflexivity.
    + exists (show_row_range first (after - 1)). split; [right; split; [intro B; apply I in B; congruence|apply show_row_range_spec]|].
      intros Ht ord fuel Ho Hfu. apply eval_reference; auto. unfold variable_node. rewrite V. cbn [into_ast]. rewrite FC, SR, LR. reflexivity.
  - destruct (fill_contains f pos) eqn:FC.
    + exists (show_address {| addr_x := x; addr_y := addr_y pos |}). split; [left; split; [apply I; exact FC|apply show_address_spec]|].
      intros Ht ord fuel Ho Hfu. apply eval_reference; auto. unfold variable_node. rewrite V. cbn [into_ast]. rewrite FC. reflexivity.
    + exists (show_col_range x first (after - 1)). split; [right; split; [intro B; apply I in B; congruence|apply show_col_range_spec]|].
      intros Ht ord fuel Ho Hfu. apply eval_reference; auto. unfold variable_node. rewrite V. cbn [into_ast]. rewrite FC, SR, LR. reflexivity.
Qed.
Print Assumptions C22_inside_fill_partial.
(** Different cells have different names, so the text says which cell it is. *)
Theorem C22_names_unambiguous : forall t x y x' y', names_cell t x y -> names_cell t x' y' -> x = x' /\ y = y'.
Proof. exact names_cell_inj. Qed.
Print Assumptions C22_names_unambiguous.

(** Non-vacuity and the whole way through: what tests/variable_scoping.rs expects. *)
Definition ex_env : eval_env := {| ev_fuel := 10; ev_order := fun _ _ l => l |}.
Definition ex_output (p : program) (ext : list (str * node)) : list (list str) :=
  match main_eval ex_env [] p ext with Ok p' => map (fun r => map show_cell (row_cells r)) (sheet_rows (pr_sheet p')) | _ => [] end.
Example C22_example : ex_output ex_prog [] =
  map (map lit) [["Foo"; "Bar"; "Baz"; "=SUM(A2:A4)"]; [""; "=(A2 * 5)"; "=(A2 + 1)"; ""]; [""; "=(A3 * 5)"; "=(A3 + 1)"; ""]; [""; "=(A4 * 5)"; "=(A4 + 1)"; ""];
   ["last"; "=A2:A4"; "=A5"]]%string.
Proof. vm_compute. reflexivity. Qed.
Example C22_nonvacuous : exists p1 r2 r1, module_eval_fills ex_prog = Ok p1
  /\ last_binding (pr_sheet ex_prog) (lit "end") (TCell 0 2) (row_fill r2) /\ nth_error (sheet_rows (pr_sheet ex_prog)) 2 = Some r2 /\ row_fill r2 = None
  /\ last_binding (pr_sheet ex_prog) (lit "test") (TCell 0 1) (row_fill r1) /\ nth_error (sheet_rows (pr_sheet ex_prog)) 1 = Some r1 /\ row_fill r1 <> None
  /\ (forall text, names_cell text 0 4 -> In text (map fst (variables (sheet_scope p1 []))) -> False).
Proof.
  assert (X : forall t f n, In (t, f, n) (events 0 (sheet_rows (pr_sheet ex_prog))) ->
    (t, n) = (TCell 0 1, lit "test") \/ (t, n) = (TCell 0 2, lit "end")).
  { intros t f n H. vm_compute in H. destruct H as [H|[H|[]]]; injection H as <- _ <-; auto. }
  exists {| pr_scope := pr_scope ex_prog; pr_sheet := ex_expanded; pr_required := pr_required ex_prog |}.
  exists (nth 2 (sheet_rows (pr_sheet ex_prog)) default_row), (nth 1 (sheet_rows (pr_sheet ex_prog)) default_row).
  split; [vm_compute; reflexivity|]. split.
  { split; [apply events_binds; vm_compute; auto|]. intros t' f' H. apply events_binds in H. destruct (X _ _ _ H) as [E|E]; [|left; congruence].
    exfalso. injection E as _ E. discriminate. }
  split; [reflexivity|]. split; [reflexivity|]. split.
  { split; [apply events_binds; vm_compute; auto|]. intros t' f' H. apply events_binds in H. destruct (X _ _ _ H) as [E|E]; [left; congruence|].
    exfalso. injection E as _ E. discriminate. }
  split; [reflexivity|]. split; [discriminate|].
  intros text [a [b [-> [[A1 A2] [_ [B1 _]]]]]] H. destruct a as [|k a]; [contradiction|]. vm_compute in H.
  cbn [forallb] in A2. apply andb_true_iff in A2 as [A2 _]. apply andb_true_iff in A2 as [_ A2]. apply N.leb_le in A2.
  destruct H as [H|[H|[H|[]]]]; cbn in H; injection H as H _; lia.
Qed.

(** ** C26 *)
(** A name means the code section's definition if there is one, else the last cell or row bound to it,
    else the value given on the command line; and it is unknown only if none of them defines it. *)
Theorem C26_precedence : forall co text p kvs ext name,
  load_source co text = Ok p -> parse_key_values (co_oracle co) kvs [] = Ok ext ->
  let seen := assoc name (variables (sheet_scope p ext)) in
  let bound := exists t f, binds (pr_sheet p) name t f in
  (forall v, assoc name (variables (pr_scope p)) = Some v -> seen = Some v)
  /\ (assoc name (variables (pr_scope p)) = None -> bound ->
        exists t f, last_binding (pr_sheet p) name t f /\ match seen with
          | Some (NVar _ (VAbsolute a)) => t = TCell (addr_x a) (addr_y a) /\ f = None
          | Some (NVar _ (VColumnRelative x g)) => (exists y, t = TCell x y) /\ f = Some g
          | Some (NVar _ (VRow y)) => t = TRow y /\ f = None
          | Some (NVar _ (VRowRelative y g)) => t = TRow y /\ f = Some g
          | _ => False
          end)
  /\ (assoc name (variables (pr_scope p)) = None -> ~ bound -> seen = assoc name ext).
Proof.
  intros co text p kvs ext name HL HK. cbn zeta.
  destruct (load_source_unique _ _ _ HL) as [_ U]. assert (K : NoDup (map fst ext)) by (eapply key_values_unique; [|exact HK]; constructor).
  rewrite sheet_scope_assoc by assumption. split; [|split].
  - intros v ->. reflexivity.
  - intros -> [t [f B]]. destruct (last_binding_exists _ _ _ _ B) as [t' [f' L]]. exists t', f'. split; [exact L|].
    rewrite (sheet_variables_last _ _ _ _ L). destruct t' as [y|x y], f' as [g|]; cbn; eauto.
  - intros -> B. rewrite sheet_variables_none; [reflexivity|]. intros t f H. apply B. eauto.
Qed.
Print Assumptions C26_precedence.
(** seen in the output *)
Definition ex_shadow : program := Eval vm_compute in ex_program (lit "x := 1
---
[[var=x]],[[var=y]],=x,=y,=z").
Definition ex_args : list (str * node) := Eval vm_compute in
  match parse_key_values (co_oracle ex_co) (map lit ["x=7"; "y=8"; "z=9"]%string) [] with Ok l => l | _ => [] end.
Example C26_example : nth 0 (ex_output ex_shadow ex_args) [] = map lit [""; ""; "=1"; "=B1"; "=9"]%string /\ length ex_args = 3.
Proof. vm_compute. auto. Qed.

(** ** C27 *)
(** Importing [other] into [sc]: own definitions stay, exported ones are added, others are not, and the
    exports of the importing module are the same as before. *)
Theorem C27_import : forall sc other name,
  let sc' := scope_merge sc other in
  (forall v, assoc name (variables sc) = Some v -> assoc name (variables sc') = Some v)
  /\ (forall v, assoc name (functions sc) = Some v -> assoc name (functions sc') = Some v)
  /\ (assoc name (variables sc) = None -> In name (exports other) -> assoc name (variables sc') = assoc name (variables other))
  /\ (assoc name (functions sc) = None -> In name (exports other) -> assoc name (functions sc') = assoc name (functions other))
  /\ (assoc name (variables sc) = None -> ~ In name (exports other) -> assoc name (variables sc') = None)
  /\ (assoc name (functions sc) = None -> ~ In name (exports other) -> assoc name (functions sc') = None)
  /\ exports sc' = exports sc.
Proof.
  intros sc other name. cbn zeta. unfold scope_merge. destruct (scope_merge_spec other (exports other) sc name) as [A [B C]]. rewrite A, B, C.
  assert (K : str_in name (exports other) = true <-> In name (exports other)) by apply str_in_spec.
  split; [intros v ->; reflexivity|]. split; [intros v ->; reflexivity|].
  split; [intros -> H; apply K in H; now rewrite H|]. split; [intros -> H; apply K in H; now rewrite H|].
  assert (N : ~ In name (exports other) -> str_in name (exports other) = false).
  { intro H. destruct (str_in name (exports other)); [|reflexivity]. destruct H. now apply K. }
  split; [intros -> H; now rewrite (N H)|]. split; [intros -> H; now rewrite (N H)|]. reflexivity.
Qed.
Print Assumptions C27_import.
(** Every definition of a code section is exported, and nothing else: importing is not transitive. *)
Lemma parse_scope_exports o : forall fuel ts sc req sc' req',
  (forall x, In x (exports sc) <-> assoc x (variables sc) <> None \/ assoc x (functions sc) <> None) ->
  parse_scope fuel o ts sc req = Ok (sc', req') ->
  (forall x, In x (exports sc') <-> assoc x (variables sc') <> None \/ assoc x (functions sc') <> None).
Proof.
  induction fuel as [|fuel IH]; intros ts sc req sc' req' H E; [discriminate|]. cbn [parse_scope] in E.
  destruct ts as [|[t s] ts]; [inversion E; subst; exact H|]. destruct t; try discriminate.
  - bind2 E. destruct p as [name fn]. eapply IH; [|exact E]. intro x. cbn [define_function exports variables functions]. rewrite In_set_insert, H.
    destruct (str_eqb_spec x name) as [->|D]; [rewrite assoc_insert_same|rewrite assoc_insert_other by exact D]; intuition discriminate.
  - bind2 E. eapply IH; [|exact E]. intro x. cbn [define_variable exports variables functions]. rewrite In_set_insert, H.
    destruct (str_eqb_spec x s) as [->|D]; [rewrite assoc_insert_same|rewrite assoc_insert_other by exact D]; intuition discriminate.
  - eapply IH; [|exact E]. exact H.
Qed.
Theorem C27_exports : forall co text p name, load_source co text = Ok p ->
  (In name (exports (pr_scope p)) <-> assoc name (variables (pr_scope p)) <> None \/ assoc name (functions (pr_scope p)) <> None).
Proof.
  intros co text p name H. unfold load_source in H. destruct (code_section (source_code_new text)) as [sec|].
  - destruct (code_section_parse (co_oracle co) sec) as [[sc req]| | |] eqn:E; cbn [bind] in H; try discriminate.
    destruct (sheet_parse _ _); cbn [bind] in H; try discriminate. injection H as <-. cbn [pr_scope].
    unfold code_section_parse in E. destruct (ast_lex _ _) as [lx|u| |]; try discriminate; [|exfalso; revert E; apply unknown_error_not_ok].
    apply locate_ok in E. eapply parse_scope_exports; [|exact E]. intro x. cbn. split; [intros []|intros [[]|[]]; reflexivity].
  - cbn [bind] in H. destruct (sheet_parse _ _); cbn [bind] in H; try discriminate. injection H as <-. cbn. split; [intros []|intros [[]|[]]; reflexivity].
Qed.
Print Assumptions C27_exports.
Definition ex_lib : program := Eval vm_compute in ex_program (lit "x := 2
fn twice(n) n * 2
---
").
Example C27_nonvacuous : let sc := scope_merge (pr_scope ex_shadow) (pr_scope ex_lib) in
  In (lit "twice") (exports (pr_scope ex_lib)) /\ assoc (lit "twice") (functions (pr_scope ex_shadow)) = None
  /\ option_map show (assoc (lit "x") (variables sc)) = Some (lit "x := 1") /\ option_map show (assoc (lit "twice") (functions sc)) = Some (lit "twice(n) (n * 2)").
Proof. vm_compute. auto 6. Qed.

(** ** C52: evaluating a sheet *)
(** Whatever the schedule of the row tasks: every row and cell stays where it is with its options, text and variable; a
    cell without formula stays as it is and the formula of every other cell is replaced by its value at that cell. *)
Theorem C52_in_place : forall ev sched p ext p', main_eval ev sched p ext = Ok p' ->
  exists p1, module_eval_fills p = Ok p1 /\
  length (sheet_rows (pr_sheet p')) = length (sheet_rows (pr_sheet p1))
  /\ forall y r, nth_error (sheet_rows (pr_sheet p1)) y = Some r ->
     exists r', nth_error (sheet_rows (pr_sheet p')) y = Some r' /\ row_options r' = row_options r /\ row_fill r' = row_fill r /\ row_var r' = row_var r
       /\ length (row_cells r') = length (row_cells r)
       /\ forall x c, nth_error (row_cells r) x = Some c ->
          exists c', nth_error (row_cells r') x = Some c' /\ cell_field c' = cell_field c /\ parsed_value c' = parsed_value c
            /\ cell_options c' = cell_options c /\ cell_var c' = cell_var c
            /\ match cell_ast c with
               | None => cell_ast c' = None
               | Some n => exists m, ast_eval (ev_fuel ev) (ev_order ev {| addr_x := x; addr_y := y |}) (sheet_scope p1 ext) (Some {| addr_x := x; addr_y := y |}) n = Ok m
                           /\ cell_ast c' = Some m
               end.
Proof.
  intros ev sched p ext p' H. unfold main_eval in H. destruct (module_eval_fills p) as [p1| | |]; cbn [bind] in H; try discriminate. exists p1. split; [reflexivity|].
  destruct (eval_spreadsheet_ok _ _ _ _ _ H) as [L N]. split; [exact L|]. intros y r Hr. destruct (N y r Hr) as [r' [N' E]]. exists r'. split; [exact N'|].
  destruct (row_eval_ok _ _ _ _ _ E) as [A [B [C [D F]]]]. repeat (split; [assumption|]). intros x c Hc. destruct (F x c Hc) as [c' [G1 [G2 [G3 [G4 [G5 G6]]]]]].
  exists c'. repeat (split; [assumption|]). exact G6.
Qed.
Print Assumptions C52_in_place.
(** The schedule does not matter, and a reported failure is the failure of some row. *)
Theorem C52_schedule : forall ev sched1 sched2 p ext p', main_eval ev sched1 p ext = Ok p' -> main_eval ev sched2 p ext = Ok p'.
Proof.
  intros ev s1 s2 p ext p' H. unfold main_eval in *. destruct (module_eval_fills p) as [p1| | |]; cbn [bind] in *; try discriminate.
  unfold eval_spreadsheet in *. destruct (par_collect s1 _) as [rows| | |] eqn:E; cbn [bind] in H; try discriminate.
  apply par_collect_ok in E. assert (E2 : par_collect s2 (mapi (row_eval ev (sheet_scope p1 ext)) 0 (sheet_rows (pr_sheet p1))) = Ok rows) by now apply par_collect_ok.
  rewrite E2. exact H.
Qed.
Print Assumptions C52_schedule.
Lemma collect_err {E A} : forall (xs : list (outcome E A)) e, collect xs = Err e -> In (Err e) xs.
Proof.
  induction xs as [|x xs IH]; intros e H; cbn [collect] in H; [discriminate|].
  destruct x as [a|e'| |]; cbn [bind] in H; try discriminate; [|injection H as <-; left; reflexivity].
  destruct (collect xs) as [r| e2| |]; cbn [bind] in H; try discriminate. right. apply IH. exact H.
Qed.
Lemma par_collect_err {E A} sched (xs : list (outcome E A)) e : par_collect sched xs = Err e -> In (Err e) xs.
Proof.
  unfold par_collect. destruct (first_failure xs sched) as [x|] eqn:F; [|apply collect_err].
  intro H. destruct x as [a|e'| |]; cbn in H; try discriminate. injection H as <-. revert F. induction sched as [|i s IH]; cbn [first_failure]; [discriminate|].
  destruct (nth_error xs i) as [x|] eqn:N; [|exact IH]. destruct (is_ok x); [exact IH|]. intros [= ->]. eapply nth_error_In; eauto.
Qed.
Lemma eval_cells_err ev sc y : forall cs x e, eval_cells ev sc y x cs = Err e ->
  exists i c n k, nth_error cs i = Some c /\ cell_ast c = Some n /\ e = CellEval {| addr_x := x + i; addr_y := y |} k
    /\ ast_eval (ev_fuel ev) (ev_order ev {| addr_x := x + i; addr_y := y |}) sc (Some {| addr_x := x + i; addr_y := y |}) n = Err k.
Proof.
  induction cs as [|c cs IH]; intros x e H; cbn [eval_cells] in H; [discriminate|].
  destruct (cell_ast c) as [n|] eqn:Ec; cbn [bind] in H.
  - destruct (ast_eval _ _ _ _ n) as [m|k| |] eqn:En; cbn [bind] in H; try discriminate.
    + destruct (eval_cells ev sc y (S x) cs) as [?|e2| |] eqn:C; cbn [bind] in H; try discriminate. injection H as <-.
      destruct (IH _ _ C) as [i [c' [n' [k' [A [B [D F]]]]]]]. exists (S i), c', n', k'. rewrite Nat.add_succ_r. auto.
    + injection H as <-. exists 0, c, n, k. rewrite Nat.add_0_r. auto.
  - destruct (eval_cells ev sc y (S x) cs) as [?|e2| |] eqn:C; cbn [bind] in H; try discriminate. injection H as <-.
    destruct (IH _ _ C) as [i [c' [n' [k' [A [B [D F]]]]]]]. exists (S i), c', n', k'. rewrite Nat.add_succ_r. auto.
Qed.
Theorem C52_failure : forall ev sched p ext e, main_eval ev sched p ext = Err e ->
  (e = MultipleInfiniteFills /\ eval_fills (pr_sheet p) = None)
  \/ exists p1 a r c n k, module_eval_fills p = Ok p1 /\ e = CellEval a k
     /\ nth_error (sheet_rows (pr_sheet p1)) (addr_y a) = Some r /\ nth_error (row_cells r) (addr_x a) = Some c /\ cell_ast c = Some n
     /\ ast_eval (ev_fuel ev) (ev_order ev a) (sheet_scope p1 ext) (Some a) n = Err k.
Proof.
  intros ev sched p ext e H. unfold main_eval in H. destruct (module_eval_fills p) as [p1|e1| |] eqn:M; cbn [bind] in H; try discriminate.
  - right. exists p1. unfold eval_spreadsheet in H. destruct (par_collect _ _) as [?|e2| |] eqn:P; cbn [bind] in H; try discriminate. injection H as <-.
    apply par_collect_err, In_nth_error in P as [y P]. rewrite mapi_nth in P. destruct (nth_error (sheet_rows (pr_sheet p1)) y) as [r|] eqn:Ny; [|discriminate].
    cbn [option_map Nat.add] in P. injection P as P. unfold row_eval in P. destruct (eval_cells _ _ _ _ _) as [?|e3| |] eqn:C; cbn [bind] in P; try discriminate. injection P as <-.
    destruct (eval_cells_err _ _ _ _ _ _ C) as [i [c [n [k [A [B [D F]]]]]]]. cbn [Nat.add] in *. exists {| addr_x := i; addr_y := y |}, r, c, n, k. auto 8.
  - left. injection H as <-. unfold module_eval_fills in M. destruct (eval_fills (pr_sheet p)); [discriminate|]. injection M as <-. auto.
Qed.
Print Assumptions C52_failure.
Example C52_nonvacuous : exists p', main_eval ex_env [3; 0; 1] ex_prog [] = Ok p'.
Proof. eexists. vm_compute. reflexivity. Qed.
Example C52_failure_example : exists k, main_eval ex_env [1; 0] (ex_program (lit "fn f(a) a
---
=f(1)
=1,""=f(1, 2)""")) [] = Err (CellEval {| addr_x := 1; addr_y := 1 |} k).
Proof. eexists. vm_compute. reflexivity. Qed.
