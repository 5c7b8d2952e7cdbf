(** * PropKey: values given on the command line are definitions (C86). *)
From Verif Require Import Base BaseProofs Csvp SourceCode SourceSpec Ast AstParser Eval EvalSpec EvalProofs EvalRounds FormulaSpec Options CellParser CodeSectionSpec PropFormula
  Sheet SheetSpec SheetProofs SheetProofs2 ModuleProofs3 Loader LoaderSpec PropCell PropSheet PropVariables PropLoader PropCache PropModules PropCompile PropProgram SameSpec SameProofs SameLoad PropSame EditSpec EditProofs EditProofs2 EditLoad PropEdit.

(** ** Scopes with the same values *)
Section Values.
  Variables (sc sc' : scope).
  Hypothesis Hv : forall pos x, variable_node sc' pos x = variable_node sc pos x.
  Hypothesis Hf : functions sc' = functions sc.
  Lemma values_known x : has_key x (variables sc') = has_key x (variables sc).
  Proof. unfold has_key. specialize (Hv None x). unfold variable_node in Hv. destruct (assoc x (variables sc')) as [[]|], (assoc x (variables sc)) as [[]|]; try reflexivity; discriminate Hv. Qed.
  Lemma values_extract : forall n acc, extract_dfs sc' n acc = extract_dfs sc n acc.
  Proof.
    apply (AstProofs.node_induction (fun n => forall acc, extract_dfs sc' n acc = extract_dfs sc n acc)); intros; cbn [extract_dfs]; try reflexivity.
    - auto.
    - rewrite Hf. generalize (if has_key n (functions sc) then {| ref_functions := set_insert n (ref_functions acc); ref_variables := ref_variables acc |} else acc).
      clear acc. match goal with H : Forall _ _ |- _ => induction H as [|b bs Hb Hbs IH] end; intro acc; cbn; [reflexivity|]. rewrite Hb. apply IH.
    - congruence.
    - rewrite values_known. reflexivity.
    - destruct v; auto.
  Qed.
  Lemma values_resolve pos : forall xs, resolve_variables sc' pos xs = resolve_variables sc pos xs.
  Proof. induction xs as [|x xs IH]; cbn [resolve_variables]; [reflexivity|]. rewrite Hv, IH. reflexivity. Qed.
  Lemma values_functions : forall fs n, eval_functions sc' fs n = eval_functions sc fs n.
  Proof. induction fs as [|f fs IH]; intro n; cbn [eval_functions]; [reflexivity|]. rewrite Hf. destruct (assoc f (functions sc)); [|apply IH]. destruct (call_function _ _ _); cbn [bind]; auto. Qed.
  Lemma values_eval fuel ord pos n : ast_eval fuel ord sc' pos n = ast_eval fuel ord sc pos n.
  Proof.
    unfold ast_eval. generalize no_references as last. generalize 0 as k. revert n. induction fuel as [|fuel IH]; intros n k last; cbn [eval_loop]; [reflexivity|].
    unfold extract_references. rewrite values_extract. destruct (_ || _); [reflexivity|]. unfold eval_round. rewrite values_resolve. destruct (resolve_variables sc pos _); cbn [bind]; auto.
    rewrite values_functions. destruct (eval_functions _ _ _); cbn [bind]; auto.
  Qed.
  Lemma values_cells ev y : forall cs x, eval_cells ev sc' y x cs = eval_cells ev sc y x cs.
  Proof. induction cs as [|c cs IH]; intro x; cbn [eval_cells]; [reflexivity|]. rewrite IH. destruct (cell_ast c); [rewrite values_eval|]; reflexivity. Qed.
  Lemma values_row ev y r : row_eval ev sc' y r = row_eval ev sc y r.
  Proof. unfold row_eval. rewrite values_cells. reflexivity. Qed.
End Values.
Lemma values_main ev sched p p' ext ext' : pr_sheet p' = pr_sheet p ->
  (forall t, eval_fills (pr_sheet p) = Some t -> forall pos x, variable_node (sheet_scope {| pr_scope := pr_scope p'; pr_sheet := t; pr_required := pr_required p' |} ext') pos x
     = variable_node (sheet_scope {| pr_scope := pr_scope p; pr_sheet := t; pr_required := pr_required p |} ext) pos x) ->
  functions (pr_scope p') = functions (pr_scope p) ->
  omap pr_sheet (main_eval ev sched p' ext') = omap pr_sheet (main_eval ev sched p ext).
Proof.
  intros Es Hv Hf. unfold main_eval, module_eval_fills. rewrite Es. destruct (eval_fills (pr_sheet p)) as [t|]; [|reflexivity]. cbn [bind]. unfold eval_spreadsheet. cbn [pr_sheet].
  rewrite (mapi_eq (row_eval ev (sheet_scope {| pr_scope := pr_scope p'; pr_sheet := t; pr_required := pr_required p' |} ext')) (row_eval ev (sheet_scope {| pr_scope := pr_scope p; pr_sheet := t; pr_required := pr_required p |} ext)))
    by (intros; apply values_row; [apply Hv; reflexivity|exact Hf]).
  destruct (par_collect _ _); reflexivity.
Qed.

(** ** C86 *)
Lemma same_result_trans {E A} (f : A -> spreadsheet) (r r' r'' : outcome E A) : same_result f r r' -> same_result f r' r'' -> same_result f r r''.
Proof.
  assert (Tc : forall l l' l'', Forall2 alike_cell l l' -> Forall2 alike_cell l' l'' -> Forall2 alike_cell l l'').
  { intros l l' l'' H. revert l''. induction H as [|c c' l l' H _ IH]; intros l'' H'; inversion H' as [|c1 c2 k k' G G' E1 E2]; subst; constructor; auto. destruct H as [A1 [A2 [A3 A4]]], G as [B1 [B2 [B3 B4]]]. repeat split; congruence. }
  assert (Tr : forall l l' l'', Forall2 alike_row l l' -> Forall2 alike_row l' l'' -> Forall2 alike_row l l'').
  { intros l l' l'' H. revert l''. induction H as [|c c' l l' H _ IH]; intros l'' H'; inversion H' as [|c1 c2 k k' G G' E1 E2]; subst; constructor; auto. destruct H as [A1 [A2 [A3 A4]]], G as [B1 [B2 [B3 B4]]].
    split; [congruence|]. split; [congruence|]. split; [congruence|]. eauto. }
  destruct r, r', r''; cbn [same_result]; try contradiction; auto; try congruence. intros [H1 H2] [H3 H4]. split; [congruence|eauto].
Qed.
(** the argument x=... gives the name a value *)
Definition gives (x kv : str) : Prop := exists v, kv = x ++ [c_eq] ++ v.
Lemma split_given x v : ~ In c_eq x -> split_once c_eq (x ++ [c_eq] ++ v) = Some (x, v).
Proof.
  induction x as [|c x IH]; intro N; cbn [app split_once]; [rewrite N.eqb_refl; reflexivity|]. destruct (N.eqb_spec c c_eq) as [->|Ne]; [destruct N; left; reflexivity|].
  cbn [app] in IH. rewrite IH by (intro H; apply N; right; exact H). reflexivity.
Qed.
Lemma key_values_same o x : forall kvs acc acc' args args', (forall y, y <> x -> assoc y acc' = assoc y acc) ->
  parse_key_values o kvs acc = Ok args -> parse_key_values o kvs acc' = Ok args' -> forall y, y <> x -> assoc y args' = assoc y args.
Proof.
  induction kvs as [|kv kvs IH]; intros acc acc' args args' A H H' y Hy; cbn [parse_key_values] in *; [injection H as <-; injection H' as <-; auto|].
  destruct (split_once c_eq kv) as [[k v]|]; [|discriminate H]. destruct (ast_parse o false v) as [n| | |]; try discriminate H.
  eapply IH; [|exact H|exact H'|exact Hy]. intros z Hz. destruct (str_eqb_spec z k) as [->|Ne]; [rewrite !assoc_insert_same; reflexivity|rewrite !assoc_insert_other by exact Ne; auto].
Qed.
Lemma key_values_keep o x : forall kvs acc args, Forall (fun kv => ~ gives x kv) kvs -> parse_key_values o kvs acc = Ok args -> assoc x args = assoc x acc.
Proof.
  induction kvs as [|kv kvs IH]; intros acc args N H; cbn [parse_key_values] in *; [injection H as <-; reflexivity|]. apply Forall_cons_iff in N as [N1 N2].
  pose proof (PropCli.split_once_spec c_eq kv) as Sp. destruct (split_once c_eq kv) as [[k v]|]; [|discriminate H]. destruct (ast_parse o false v) as [n| | |]; try discriminate H.
  rewrite (IH _ _ N2 H). apply assoc_insert_other. intros <-. apply N1. exists v. apply Sp.
Qed.
Lemma key_values_drop o x kv e b : split_once c_eq kv = Some (x, show e) -> printable o e -> Forall (fun kv => ~ gives x kv) b ->
  forall a acc acc' args args', (forall y, y <> x -> assoc y acc' = assoc y acc) ->
  parse_key_values o (a ++ kv :: b) acc = Ok args -> parse_key_values o (a ++ b) acc' = Ok args' ->
  assoc x args = Some (canonical e) /\ forall y, y <> x -> assoc y args' = assoc y args.
Proof.
  intros Sk Pe Nb. induction a as [|kv' a IH]; intros acc acc' args args' A H H'; cbn [parse_key_values app] in *.
  - rewrite Sk in H. rewrite (proj1 (FormulaText.parse_show o false e Pe)) in H. split; [rewrite (key_values_keep _ _ _ _ _ Nb H), assoc_insert_same; reflexivity|].
    eapply key_values_same; [|exact H|exact H']. intros y Hy. rewrite assoc_insert_other by exact Hy. auto.
  - destruct (split_once c_eq kv') as [[k v]|]; [|discriminate H]. destruct (ast_parse o false v) as [n| | |]; try discriminate H.
    eapply IH; [|exact H|exact H']. intros z Hz. destruct (str_eqb_spec z k) as [->|Ne]; [rewrite !assoc_insert_same; reflexivity|rewrite !assoc_insert_other by exact Ne; auto].
Qed.
Lemma ident_no_eq u x : ident u x = true -> ~ In c_eq x.
Proof.
  intro H. destruct (FormulaText.ident_parts _ _ H) as [c [b [d [-> [Hb [Hd _]]]]]]. intro I. apply in_app_or in I as [I|I].
  - rewrite forallb_forall in Hb. specialize (Hb _ I). vm_compute in Hb. discriminate Hb.
  - destruct Hd as [->| ->]; [destruct I|]. destruct I as [I|[]]. discriminate I.
Qed.
(** Writing [x=e] on the command line is the same as writing [x := e] in the code section (anywhere), as long as neither the code
    section nor a cell or row of the sheet has that name: those come first. For files without imports. *)
Theorem C86_key_value_is_a_definition : forall E use_cache a x e b args args' name F F' l1 l2 rows time time' p,
  (forall a, is_order (ev_order (e_sheet E) a)) ->
  Forall (fun kv => ~ gives x kv) b ->
  parse_key_values (co_oracle (e_co E)) (a ++ (x ++ [c_eq] ++ show e) :: b) [] = Ok args -> parse_key_values (co_oracle (e_co E)) (a ++ b) [] = Ok args' ->
  Forall (item_ok (co_oracle (e_co E))) (l1 ++ IVar x e :: l2) -> Forall (fun j => is_use j = false) (l1 ++ IVar x e :: l2) ->
  Forall (fun j => file_line (item_text j)) (l1 ++ IVar x e :: l2) -> Forall file_line rows ->
  (forall e', ~ In (IVar x e') (l1 ++ l2)) ->
  sources F [name] = Some (file_of (l1 ++ l2) rows, time) -> no_object F [name] \/ older_object F [name] ->
  sources F' [name] = Some (file_of (l1 ++ IVar x e :: l2) rows, time') -> no_object F' [name] \/ older_object F' [name] ->
  load_source (e_co E) (file_of (l1 ++ l2) rows) = Ok p -> (forall r, In r (sheet_rows (pr_sheet p)) -> ~ named r x) ->
  forall r r', compiles E use_cache args name F r -> compiles E use_cache args' name F' r' -> same_result module_sheet (fst r) (fst r').
Proof.
  intros E uc a x e b args args' name F F' l1 l2 rows time time' p Or Nb K K' Hok Hu Hl Hr Nx So No So' No' Ld Nn r r' C C'.
  assert (Ix : item_ok (co_oracle (e_co E)) (IVar x e)) by (apply Forall_app in Hok as [_ Hok]; apply Forall_cons_iff in Hok as [Hok _]; exact Hok). cbn [item_ok] in Ix. destruct Ix as [[Ix _] Pe].
  destruct (key_values_drop _ x _ e b (split_given x (show e) (ident_no_eq _ _ Ix)) Pe Nb a [] [] args args' (fun _ _ => eq_refl) K K') as [Ka Ko].
  assert (P : forall (Q : item -> Prop), Forall Q (l1 ++ IVar x e :: l2) -> Forall Q (l1 ++ l2)) by (intros Q H; apply Forall_app in H as [Ha Hb]; apply Forall_cons_iff in Hb as [_ Hb]; apply Forall_app; auto).
  assert (Uf : forall l, Forall (fun j => is_use j = false) l -> uses_first l /\ concat (map item_modules l) = []).
  { intros l H. split.
    - destruct H as [|j l H1 H2]; [exact I|]. cbn [uses_first]. rewrite H1. apply forallb_forall. intros z Hz. rewrite Forall_forall in H2. rewrite (H2 z Hz). reflexivity.
    - induction H as [|j l H1 _ IH]; [reflexivity|]. cbn [map concat]. rewrite IH. destruct j; [discriminate H1|reflexivity..]. }
  destruct (Uf _ Hu) as [Uf2 Md2]. destruct (Uf _ (P _ Hu)) as [Uf1 Md1].
  destruct (load_file _ _ _ _ (P _ Hok) Uf1 (P _ Hl) Hr Ld) as [Sc1 [Rq1 _]].
  destruct (load_file_again _ _ _ _ _ (P _ Hok) Uf1 (P _ Hl) Hr Hok Uf2 Hl Ld) as [p' [Ld' [Sc2 [Rq2 Al]]]].
  pose proof (load_source_unique _ _ _ Ld) as [_ U]. pose proof (load_source_unique _ _ _ Ld') as [_ U'].
  assert (Ua : NoDup (map fst args)) by (eapply key_values_unique; [|exact K]; constructor).
  assert (Ua' : NoDup (map fst args')) by (eapply key_values_unique; [|exact K']; constructor).
  assert (Ce : plain (canonical e)) by (eapply key_values_plain; [|exact K|exact Ka]; intros ? ? Q; discriminate Q).
  (* the scopes *)
  assert (Bf : functions (pr_scope p') = functions (pr_scope p)) by (rewrite Sc1, Sc2; clear; rewrite !fold_left_app; cbn [fold_left]; generalize (fold_left item_scope l1 empty_scope);
    assert (G : forall l sc sc', functions sc' = functions sc -> functions (fold_left item_scope l sc') = functions (fold_left item_scope l sc)) by
      (induction l as [|i l IH]; intros sc sc' Q; cbn [fold_left]; [exact Q|]; apply IH; destruct i; cbn [item_scope define_variable define_function functions]; rewrite ?Q; auto);
    intro sc; apply G; reflexivity).
  assert (Bv : forall y, y <> x -> assoc y (variables (pr_scope p')) = assoc y (variables (pr_scope p))).
  { assert (A : agree_but (fun y => y <> x) (fun _ => True) (pr_scope p) (pr_scope p')).
    { rewrite Sc1, Sc2, !fold_left_app. cbn [fold_left]. apply items_agree. cbn [item_scope define_variable]. split; cbn [variables functions]; [|reflexivity]. intros y Hy. apply assoc_insert_other. exact Hy. }
    apply A. }
  assert (Vx : forall l sc, (forall e', ~ In (IVar x e') l) -> assoc x (variables (fold_left item_scope l sc)) = assoc x (variables sc)).
  { clear. induction l as [|i l IH]; intros sc N; cbn [fold_left]; [reflexivity|]. rewrite IH by (intros e' H; apply (N e'); right; exact H).
    destruct i as [m|n e'|n ps b0]; cbn [item_scope define_variable define_function variables]; try reflexivity. apply assoc_insert_other. intros <-. apply (N e'). left. reflexivity. }
  assert (V0 : assoc x (variables (pr_scope p)) = None) by (rewrite Sc1; apply Vx; exact Nx).
  assert (V1 : assoc x (variables (pr_scope p')) = Some (NVar x (VAst (canonical e)))).
  { rewrite Sc2, fold_left_app. cbn [fold_left]. rewrite Vx by (intros e' H; apply (Nx e'); apply in_or_app; right; exact H). cbn [item_scope define_variable variables]. apply assoc_insert_same. }
  set (pm := {| pr_scope := pr_scope p'; pr_sheet := pr_sheet p; pr_required := pr_required p' |}).
  assert (S1 : forall ev sched, same_result pr_sheet (main_eval ev sched p args) (main_eval ev sched pm args')).
  { intros ev sched. pose proof (values_main ev sched p pm args args' eq_refl) as X.
    assert (Y : omap pr_sheet (main_eval ev sched pm args') = omap pr_sheet (main_eval ev sched p args)).
    { apply X; [|exact Bf]. clear X. intros t Ht pos y. unfold variable_node. rewrite !sheet_scope_assoc by assumption. cbn [pr_scope pr_sheet pm].
      pose proof (load_plain _ _ _ Ld) as [_ [_ Fe]]. destruct (eval_fills_rows _ _ Ht Fe) as [Rt _].
      destruct (str_eqb_spec y x) as [->|Ne].
      - rewrite V0, V1. assert (Sn : assoc x (sheet_variables t) = None).
        { unfold sheet_variables. rewrite row_variables_other; [reflexivity|]. rewrite Rt. intros r0 H0 N0. destruct (blocks_named _ _ _ _ _ H0 N0) as [r1 [H1 N1]]. apply (Nn r1 H1 N1). }
        rewrite Sn, Ka. assert (Ia : into_ast (VAst (canonical e)) pos = Ok (canonical e)) by (destruct pos; reflexivity). rewrite Ia. destruct (canonical e); try reflexivity; destruct Ce.
      - rewrite (Bv y Ne), (Ko y Ne). reflexivity. }
    clear X. destruct (main_eval ev sched p args) as [q| | |], (main_eval ev sched pm args') as [q'| | |]; cbn [omap] in Y; try discriminate Y; cbn [same_result]; auto; [|congruence].
    injection Y as Y. rewrite Y. split; [reflexivity|]. clear. induction (sheet_rows (pr_sheet q)) as [|r0 l IH]; constructor; [|exact IH]. repeat split. induction (row_cells r0) as [|c cs IHc]; constructor; [repeat split|exact IHc]. }
  destruct (other_main E uc args args' name F F' (file_of (l1 ++ l2) rows) (file_of (l1 ++ IVar x e :: l2) rows) time time' p p' No No' So So' Ld Ld' ltac:(congruence)) with (r := r) as [r'' [C'' Sr]]; [| |exact C|].
  - intros q w Hq. destruct (no_imports_reach _ _ _ _ _ _ (eq_trans Rq1 Md1) Hq).
  - intros ld sc Mr. rewrite Rq1, Md1 in *. cbn [merge_required] in *. injection Mr as <-. eexists. split; [reflexivity|].
    assert (S2 : same_result pr_sheet (main_eval (e_sheet E) (e_sched E) pm args') (main_eval (e_sheet E) (e_sched E) p' args')).
    { apply same_programs; auto. split; auto. }
    specialize (S1 (e_sheet E) (e_sched E)). destruct p as [psc psh prq], p' as [psc' psh' prq']. cbn [pr_scope pr_sheet pr_required] in *. subst prq prq'. rewrite ?Md1 in S1. rewrite ?Md2 in S2.
    eapply same_result_trans; [exact S1|exact S2].
  - rewrite (no_imports_one E uc args' name F' _ time' p' r' r'' No' So' Ld' (eq_trans Rq2 Md2) C' C''). exact Sr.
Qed.
Print Assumptions C86_key_value_is_a_definition.
(** *** Examples *)
Definition ex_rate : item := IVar (lit "rate") (NInt true None 5).
Definition ex_add : list item := [IFn (lit "add") [lit "a"] (NInfix (NRef (lit "a")) (lit "+") (NRef (lit "rate")))].
Definition ex_args : list (str * node) := match parse_key_values (co_oracle ex_co) [lit "rate=5%"] [] with Ok a => a | _ => [] end.
Example C86_nonvacuous :
  ex_defs = [] ++ ex_rate :: ex_add
  /\ [lit "rate=5%"] = [] ++ (lit "rate" ++ [c_eq] ++ show (NInt true None 5)) :: [] /\ parse_key_values (co_oracle ex_co) [lit "rate=5%"] [] = Ok ex_args
  /\ Forall (item_ok (co_oracle ex_co)) (ex_rate :: ex_add)
  /\ load_source ex_co (file_of ex_add ex_rows) = Ok (ex_same ex_add)
  /\ (forall r, In r (sheet_rows (pr_sheet (ex_same ex_add))) -> ~ named r (lit "rate"))
  /\ (exists F', yields (ex_E 5) true ex_args "main" (ex_dir ex_add) (Ok [[lit "3"; lit "=(A1 + 5%)"]]) F')
  /\ (exists F', yields (ex_E 5) true [] "main" (ex_dir (ex_rate :: ex_add)) (Ok [[lit "3"; lit "=(A1 + 5%)"]]) F').
Proof.
  split; [reflexivity|]. split; [vm_compute; reflexivity|]. split; [vm_compute; reflexivity|]. split.
  { pose proof ex_items_ok as H. apply Forall_cons_iff in H as [_ H]. exact H. }
  split; [vm_compute; reflexivity|]. split.
  - intros r H N. pose proof (named_in _ _ _ H N) as X. assert (Y : flat_map names_of (sheet_rows (pr_sheet (ex_same ex_add))) = [lit "x"]) by (vm_compute; reflexivity). rewrite Y in X. destruct X as [X|[]]. vm_compute in X. discriminate X.
  - split; eexists; apply (ex_run_yields _ _ _ _ _ false [["main"]]%string); vm_compute; reflexivity.
Qed.
(** If a cell has the name, the two differ: the definition in the file takes its place, the value on the command line does not. *)
Theorem C86_named_refuted : exists args, parse_key_values (co_oracle ex_co) [lit "x=7"] [] = Ok args
  /\ (exists F', yields (ex_E 5) true args "main" (ex_one ("---" ++ nl ++ "[[var=x]]3,=x")) (Ok [[lit "3"; lit "=A1"]]) F')
  /\ (exists F', yields (ex_E 5) true [] "main" (ex_one ("x := 7" ++ nl ++ "---" ++ nl ++ "[[var=x]]3,=x")) (Ok [[lit "3"; lit "=7"]]) F').
Proof.
  eexists. split; [vm_compute; reflexivity|]. split; eexists; apply (ex_run_yields _ _ _ _ _ false [["main"]]%string); vm_compute; reflexivity.
Qed.
Print Assumptions C86_named_refuted.
