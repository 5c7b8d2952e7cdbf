(** * PropSame: changes of a program that do not change its output (C81, C82). *)
From Coq Require Import Permutation.
From Verif Require Import Base BaseProofs Csvp SourceCode SourceSpec Ast AstParser Eval EvalSpec EvalProofs EvalRounds FormulaSpec Options CellParser CodeSectionSpec PropFormula
  Sheet SheetSpec SheetProofs2 Loader LoaderSpec PropCell PropSheet PropVariables PropLoader PropCache PropCompile SameSpec SameProofs CellAlike SameLoad.

(** ** C81 *)
(** Compiling only looks at the sheet and at the definitions of the names that occur in it: two files without imports that have the
    same spreadsheet section and give the names that occur in one of them the same definitions compile to the same sheet (text,
    formulas, options and names of the cells), or fail with the same error. *)
Theorem C81_only_what_is_read : forall E use_cache kvs kvs' args args' name F F' text text' time time' p p',
  (forall a, is_order (ev_order (e_sheet E) a)) ->
  parse_key_values (co_oracle (e_co E)) kvs [] = Ok args -> parse_key_values (co_oracle (e_co E)) kvs' [] = Ok args' ->
  sources F [name] = Some (text, time) -> no_object F [name] \/ older_object F [name] ->
  sources F' [name] = Some (text', time') -> no_object F' [name] \/ older_object F' [name] ->
  load_source (e_co E) text = Ok p -> load_source (e_co E) text' = Ok p' -> pr_required p = [] -> pr_required p' = [] ->
  csv_section (source_code_new text) = csv_section (source_code_new text') ->
  same_where_read p args p' args' ->
  forall r r', compiles E use_cache args name F r -> compiles E use_cache args' name F' r' -> same_result module_sheet (fst r) (fst r').
Proof.
  intros E uc kvs kvs' args args' name F F' text text' time time' p p' Or K K' So No So' No' Ld Ld' Rq Rq' Cs Sw r r' C C'.
  pose proof (load_source_unique _ _ _ Ld) as [_ U]. pose proof (load_source_unique _ _ _ Ld') as [_ U'].
  assert (Ua : NoDup (map fst args)) by (eapply key_values_unique; [|exact K]; constructor).
  assert (Ua' : NoDup (map fst args')) by (eapply key_values_unique; [|exact K']; constructor).
  assert (Al : alike_sheet (pr_sheet p) (pr_sheet p')).
  { assert (Sp : forall t q, load_source (e_co E) t = Ok q -> sheet_parse (e_co E) (source_code_new t) = Ok (pr_sheet q)).
    { intros t q H. unfold load_source in H. cbv zeta in H. match type of H with bind ?a _ = _ => destruct a as [[? ?]| | |] end; try discriminate H. cbn [bind] in H.
      destruct (sheet_parse _ _); try discriminate H. cbn [bind] in H. injection H as <-. reflexivity. }
    destruct (sheet_parse_alike _ _ _ _ Cs (Sp _ _ Ld)) as [s' [H1 H2]]. rewrite (Sp _ _ Ld') in H1. injection H1 as <-. exact H2. }
  destruct (other_main E uc args args' name F F' text text' time time' p p' No No' So So' Ld Ld' ltac:(congruence)) with (r := r) as [r'' [C'' Sr]]; [| |exact C|].
  - intros q w Hr. destruct (no_imports_reach _ _ _ _ _ _ Rq Hr).
  - intros ld sc Mr. rewrite Rq in *. cbn [merge_required] in *. injection Mr as <-. eexists. split; [reflexivity|].
    apply same_programs; auto.
  - rewrite (no_imports_one E uc args' name F' text' time' p' r' r'' No' So' Ld' Rq' C' C''). exact Sr.
Qed.
Print Assumptions C81_only_what_is_read.

(** Adding a definition that nothing mentions - anywhere in the code section, whatever it says, even if it mentions others - changes
    nothing. (The name must not read as a place in a sheet, see C81_place_refuted.) *)
Definition unused (p : program) (args : list (str * node)) (i : item) : Prop :=
  match i with
  | IUse _ => False
  | IVar x _ => ~ reads_name p args x /\ ~ place_name x
  | IFn f _ _ => ~ calls_name p args f
  end.
Theorem C81_unused_definition : forall E use_cache kvs args name F F' l1 i l2 rows time time' p,
  (forall a, is_order (ev_order (e_sheet E) a)) -> parse_key_values (co_oracle (e_co E)) kvs [] = Ok args ->
  Forall (item_ok (co_oracle (e_co E))) (l1 ++ i :: l2) -> Forall (fun j => is_use j = false) (l1 ++ i :: l2) ->
  Forall (fun j => file_line (item_text j)) (l1 ++ i :: l2) -> Forall file_line rows ->
  sources F [name] = Some (file_of (l1 ++ l2) rows, time) -> no_object F [name] \/ older_object F [name] ->
  sources F' [name] = Some (file_of (l1 ++ i :: l2) rows, time') -> no_object F' [name] \/ older_object F' [name] ->
  load_source (e_co E) (file_of (l1 ++ l2) rows) = Ok p -> unused p args i ->
  forall r r', compiles E use_cache args name F r -> compiles E use_cache args name F' r' -> same_result module_sheet (fst r) (fst r').
Proof.
  intros E uc kvs args name F F' l1 i l2 rows time time' p Or K Hok Hu Hl Hr So No So' No' Ld Un.
  assert (P : forall (Q : item -> Prop), Forall Q (l1 ++ i :: l2) -> Forall Q (l1 ++ l2)) by (intros Q H; apply Forall_app in H as [Ha Hb]; apply Forall_cons_iff in Hb as [_ Hb]; apply Forall_app; auto).
  assert (Uf : forall l, Forall (fun j => is_use j = false) l -> uses_first l /\ concat (map item_modules l) = []).
  { intros l H. split.
    - destruct H as [|j l H1 H2]; [exact I|]. cbn [uses_first]. rewrite H1. apply forallb_forall. intros z Hz. rewrite Forall_forall in H2. rewrite (H2 z Hz). reflexivity.
    - induction H as [|j l H1 _ IH]; [reflexivity|]. cbn [map concat]. rewrite IH. destruct j; [discriminate H1|reflexivity..]. }
  destruct (Uf _ Hu) as [Uf2 Md2]. destruct (Uf _ (P _ Hu)) as [Uf1 Md1].
  destruct (load_file _ _ _ _ (P _ Hok) Uf1 (P _ Hl) Hr Ld) as [Sc1 [Rq1 _]].
  destruct (load_file_again _ _ _ _ _ (P _ Hok) Uf1 (P _ Hl) Hr Hok Uf2 Hl Ld) as [p' [Ld' [Sc2 [Rq2 _]]]].
  eapply C81_only_what_is_read with (text := file_of (l1 ++ l2) rows) (text' := file_of (l1 ++ i :: l2) rows); try eassumption; try congruence.
  - destruct (file_source _ _ _ (P _ Hok) (P _ Hl) Hr) as [_ [E1 _]]. destruct (file_source _ _ _ Hok Hl Hr) as [_ [E2 _]]. exact (eq_trans E1 (eq_sym E2)).
  - assert (A : agree_but (fun x => match i with IVar y _ => x <> y | _ => True end) (fun f => match i with IFn g _ _ => f <> g | _ => True end) (pr_scope p) (pr_scope p')).
    { rewrite Sc1, Sc2, !fold_left_app. cbn [fold_left]. apply items_agree. clear. generalize (fold_left item_scope l1 empty_scope). intro sc.
      destruct i as [m|n e|n ps b]; cbn [item_scope define_variable define_function]; split; intros x K; cbn [variables functions]; try reflexivity; apply assoc_insert_other; congruence. }
    destruct A as [A1 A2]. split.
    + intros x Hx. split; [|reflexivity]. apply A1. destruct i as [m|y e|f ps b]; cbn [unused] in Un; [destruct Un| |exact I]. intros ->. destruct Un as [N1 N2]. destruct Hx; contradiction.
    + intros f Hf. apply A2. destruct i as [m|y e|g ps b]; cbn [unused] in Un; [destruct Un|exact I|]. intros ->. contradiction.
Qed.
Print Assumptions C81_unused_definition.
(** ** C82 *)
(** The order of the definitions in a code section does not matter, also with imports: whatever compiling the file yields, some
    compilation of the file with the definitions in another order yields too (all of them, if there are no imports: see
    C82_no_imports), and the other way round. The names must be distinct (later definitions replace earlier ones) and no imported
    module must import the file itself. *)
Theorem C82_order : forall E use_cache kvs args name F F' l l' rows time time' p,
  (forall a, is_order (ev_order (e_sheet E) a)) -> parse_key_values (co_oracle (e_co E)) kvs [] = Ok args ->
  Forall (item_ok (co_oracle (e_co E))) l -> uses_first l -> uses_first l' -> filter is_use l' = filter is_use l ->
  Permutation l l' -> NoDup (map item_key (definitions l)) ->
  Forall (fun i => file_line (item_text i)) l -> Forall file_line rows ->
  sources F [name] = Some (file_of l rows, time) -> no_object F [name] \/ older_object F [name] ->
  sources F' [name] = Some (file_of l' rows, time') -> no_object F' [name] \/ older_object F' [name] ->
  same_elsewhere F F' name -> objects_in_place F -> main_not_imported E F use_cache name ->
  load_source (e_co E) (file_of l rows) = Ok p ->
  forall r, compiles E use_cache args name F r -> exists r', compiles E use_cache args name F' r' /\ same_result module_sheet (fst r) (fst r').
Proof.
  intros E uc kvs args name F F' l l' rows time time' p Or K Hok Hu Hu' Fu Pm Nd Hl Hr So No So' No' Se Op Nm Ld r C.
  assert (Hok' : Forall (item_ok (co_oracle (e_co E))) l') by (eapply Permutation_Forall; eassumption).
  assert (Hl' : Forall (fun i => file_line (item_text i)) l') by (eapply Permutation_Forall; eassumption).
  destruct (load_file _ _ _ _ Hok Hu Hl Hr Ld) as [Sc [Rq _]]. destruct (load_file_again _ _ _ _ _ Hok Hu Hl Hr Hok' Hu' Hl' Ld) as [p' [Ld' [Sc' [Rq' Al]]]].
  assert (Md : forall k, concat (map item_modules k) = concat (map item_modules (filter is_use k))).
  { clear. induction k as [|i k IH]; [reflexivity|]. destruct i; cbn [map concat filter is_use item_modules app]; rewrite IH; reflexivity. }
  pose proof (load_source_unique _ _ _ Ld) as U. pose proof (load_source_unique _ _ _ Ld') as U'.
  assert (Ua : NoDup (map fst args)) by (eapply key_values_unique; [|exact K]; constructor).
  assert (Req : pr_required p = pr_required p') by (rewrite Rq, Rq', (Md l), (Md l'), Fu; reflexivity).
  apply (other_main E uc args args name F F' (file_of l rows) (file_of l' rows) time time' p p'); auto.
  - intros q w Hq. eapply load_elsewhere; [exact Se|exact Op|exact Nm| |exact Hq]. unfold load_from_source. rewrite So, Ld. reflexivity.
  - intros ld sc Mr. assert (Ss : same_scope (pr_scope p) (pr_scope p')) by (rewrite Sc, Sc'; apply items_permuted; assumption).
    destruct (merge_required_same _ _ _ _ _ Ss U U' Mr) as [sc' [Mr' [[S1 S2] [[_ V] [_ V']]]]]. exists sc'. split; [exact Mr'|].
    apply same_programs; auto. split; intros; cbn [pr_scope]; auto.
Qed.
Print Assumptions C82_order.
(** without imports there is only one outcome *)
Theorem C82_no_imports : forall E use_cache kvs args name F F' l l' rows time time' p,
  (forall a, is_order (ev_order (e_sheet E) a)) -> parse_key_values (co_oracle (e_co E)) kvs [] = Ok args ->
  Forall (item_ok (co_oracle (e_co E))) l -> Forall (fun i => is_use i = false) l -> Permutation l l' -> NoDup (map item_key l) ->
  Forall (fun i => file_line (item_text i)) l -> Forall file_line rows ->
  sources F [name] = Some (file_of l rows, time) -> no_object F [name] \/ older_object F [name] ->
  sources F' [name] = Some (file_of l' rows, time') -> no_object F' [name] \/ older_object F' [name] ->
  load_source (e_co E) (file_of l rows) = Ok p ->
  forall r r', compiles E use_cache args name F r -> compiles E use_cache args name F' r' -> same_result module_sheet (fst r) (fst r').
Proof.
  intros E uc kvs args name F F' l l' rows time time' p Or K Hok Nu Pm Nd Hl Hr So No So' No' Ld.
  assert (Hok' : Forall (item_ok (co_oracle (e_co E))) l') by (eapply Permutation_Forall; eassumption).
  assert (Nu' : Forall (fun i => is_use i = false) l') by (eapply Permutation_Forall; eassumption).
  assert (Hl' : Forall (fun i => file_line (item_text i)) l') by (eapply Permutation_Forall; eassumption).
  assert (Uf : forall l, Forall (fun j => is_use j = false) l -> uses_first l /\ concat (map item_modules l) = [] /\ definitions l = l).
  { clear. intros l H. split; [|split].
    - destruct H as [|j l H1 H2]; [exact I|]. cbn [uses_first]. rewrite H1. apply forallb_forall. intros z Hz. rewrite Forall_forall in H2. rewrite (H2 z Hz). reflexivity.
    - induction H as [|j l H1 _ IH]; [reflexivity|]. cbn [map concat]. rewrite IH. destruct j; [discriminate H1|reflexivity..].
    - unfold definitions. induction H as [|j l H1 _ IH]; [reflexivity|]. cbn [filter]. rewrite H1, IH. reflexivity. }
  destruct (Uf _ Nu) as [Uf1 [Md1 Df1]]. destruct (Uf _ Nu') as [Uf2 [Md2 _]].
  destruct (load_file _ _ _ _ Hok Uf1 Hl Hr Ld) as [Sc [Rq _]]. destruct (load_file_again _ _ _ _ _ Hok Uf1 Hl Hr Hok' Uf2 Hl' Ld) as [p' [Ld' [Sc' [Rq' Al]]]].
  eapply C81_only_what_is_read with (text := file_of l rows) (text' := file_of l' rows); try eassumption; try congruence.
  - destruct (file_source _ _ _ Hok Hl Hr) as [_ [E1 _]]. destruct (file_source _ _ _ Hok' Hl' Hr) as [_ [E2 _]]. exact (eq_trans E1 (eq_sym E2)).
  - assert (Ss : same_scope (pr_scope p) (pr_scope p')) by (rewrite Sc, Sc'; apply items_permuted; [rewrite Df1; exact Nd|exact Pm]). destruct Ss as [S1 S2]. split; auto.
Qed.
Print Assumptions C82_no_imports.
(** *** Examples *)
(** what a program reads, as a list *)
Definition all_formulas (p : program) (ext : list (str * node)) : list node :=
  flat_map (fun r => flat_map (fun c => match cell_ast c with Some n => [n] | None => [] end) (row_cells r)) (sheet_rows (pr_sheet p))
  ++ map snd (variables (pr_scope p)) ++ map snd ext.
Lemma formula_in_all p ext n : formula_in p ext n -> In n (all_formulas p ext).
Proof.
  unfold all_formulas. intros [[r [c [Hr [Hc Ha]]]]|[[x H]|[x H]]].
  - apply in_or_app. left. apply in_flat_map. exists r. split; [exact Hr|]. apply in_flat_map. exists c. split; [exact Hc|]. rewrite Ha. left. reflexivity.
  - apply in_or_app. right. apply in_or_app. left. apply assoc_In in H. change n with (snd (x, n)). apply in_map. exact H.
  - apply in_or_app. right. apply in_or_app. right. apply assoc_In in H. change n with (snd (x, n)). apply in_map. exact H.
Qed.
Lemma not_read p ext x : forallb (fun n => negb (str_in x (ref_names n))) (all_formulas p ext ++ map snd (functions (pr_scope p))) = true -> ~ reads_name p ext x.
Proof.
  rewrite forallb_forall. intros H [[n [Hn Hx]]|[f [g [Hf [Hx _]]]]].
  - specialize (H n (in_or_app _ _ _ (or_introl (formula_in_all _ _ _ Hn)))). apply str_in_spec in Hx. rewrite Hx in H. discriminate H.
  - apply assoc_In in Hf. specialize (H g (in_or_app _ _ _ (or_intror (in_map snd _ _ Hf)))). apply str_in_spec in Hx. rewrite Hx in H. discriminate H.
Qed.
Lemma not_place x c s : x = c :: s -> ((65 <=? c) && (c <=? 90) || (48 <=? c) && (c <=? 57))%N = false -> ~ place_name x.
Proof.
  intros -> Hc. assert (A : forall t u a b, letters t -> c :: s = (t ++ u) ++ b -> a = a :> nat -> False).
  { intros t u a b [Hn Ht] Eq _. destruct t as [|d t]; [congruence|]. cbn in Eq. injection Eq as <- _. cbn [forallb] in Ht. apply andb_true_iff in Ht as [Ht _]. rewrite Ht in Hc. discriminate Hc. }
  assert (D : forall t b, all_digits t = true -> digits_value t <> 0%N -> c :: s = t ++ b -> False).
  { intros t b Hd Hz Eq. destruct t as [|d t]; [destruct (Hz eq_refl)|]. cbn in Eq. injection Eq as <- _. unfold all_digits in Hd. cbn [forallb] in Hd. 
    destruct ((48 <=? c) && (c <=? 57))%N eqn:K; [rewrite orb_true_r in Hc; discriminate Hc|]. unfold is_ascii_digit in Hd. rewrite K in Hd. cbn in Hd. rewrite ?andb_false_r in Hd. discriminate Hd. }
  intros [[x [y [a [b [Eq [Ha _]]]]]]|[[x [y [y' [t [u [Eq [[a [b [Et [Ha _]]]] _]]]]]]]|[y [y' [a [b [Eq [Ha [Hv _]]]]]]]]].
  - apply (A a b 0 []); auto. rewrite app_nil_r. exact Eq.
  - apply (A a b 0 ([c_colon] ++ u)); auto. rewrite <- Et. exact Eq.
  - apply (D a ([c_colon] ++ b)); auto. rewrite Hv. lia.
Qed.
Definition ex_defs : list item := [IVar (lit "rate") (NInt true None 5); IFn (lit "add") [lit "a"] (NInfix (NRef (lit "a")) (lit "+") (NRef (lit "rate")))].
Definition ex_spare : item := IVar (lit "spare") (NInfix (NRef (lit "rate")) (lit "*") (NRef (lit "nothing"))).
Definition ex_rows : list str := [lit "[[var=x]]3,=add(x)"].
Definition ex_dir (l : list item) : fs := {| sources := fun f => if path_eqb f [lit "main"] then Some (file_of l ex_rows, 1) else None; objects := fun _ => None |}.
Definition ex_same (l : list item) : program := match load_source ex_co (file_of l ex_rows) with Ok p => p | _ => ex_prog end.
Lemma ex_items_ok : Forall (item_ok (co_oracle ex_co)) (ex_spare :: ex_defs).
Proof. repeat constructor; try (vm_compute; reflexivity); try discriminate; simpl; auto 10; vm_compute; discriminate. Qed.

Definition ex_result (F : fs) (order : list (list string)) : option (outcome compile_error (list (list str))) := option_map (fun x => texts (fst x)) (ex_run (ex_E 5) true [] "main" F false order).
(** the file with and without the spare definition, which mentions a name that is not even defined *)
Example C81_nonvacuous :
  file_of (ex_spare :: ex_defs) ex_rows = lit "spare := (rate * nothing)" ++ [c_nl] ++ lit "rate := 5%" ++ [c_nl] ++ lit "fn add(a) (a + rate)" ++ [c_nl] ++ lit "---" ++ [c_nl] ++ lit "[[var=x]]3,=add(x)" ++ [c_nl]
  /\ (Forall (item_ok (co_oracle ex_co)) (ex_spare :: ex_defs) /\ Forall (fun i => is_use i = false) (ex_spare :: ex_defs)
      /\ Forall (fun i => file_line (item_text i)) (ex_spare :: ex_defs) /\ Forall file_line ex_rows)
  /\ load_source ex_co (file_of ex_defs ex_rows) = Ok (ex_same ex_defs) /\ unused (ex_same ex_defs) [] ex_spare
  /\ (forall l, In l [ex_defs; ex_spare :: ex_defs] -> exists F', yields (ex_E 5) true [] "main" (ex_dir l) (Ok [[lit "3"; lit "=(A1 + 5%)"]]) F').
Proof.
  split; [vm_compute; reflexivity|]. split; [split; [exact ex_items_ok|]; split; [|split]; repeat constructor|]. split; [vm_compute; reflexivity|]. split.
  - split; [apply not_read; vm_compute; reflexivity|]. eapply not_place; [vm_compute; reflexivity|reflexivity].
  - intros l H. eexists. apply (ex_run_yields _ _ _ _ _ false [["main"]]%string). destruct H as [<-|[<-|[]]]; vm_compute; reflexivity.
Qed.
(** A variable that nothing mentions but whose name reads as a place in the sheet is not harmless: it takes the place of the
    references that named cells stand for. *)
Definition ex_named_place : item := IVar (lit "A1") (NInt false None 7).
Theorem C81_place_refuted : ~ reads_name (ex_same ex_defs) [] (lit "A1")
  /\ (exists F', yields (ex_E 5) true [] "main" (ex_dir ex_defs) (Ok [[lit "3"; lit "=(A1 + 5%)"]]) F')
  /\ (exists F', yields (ex_E 5) true [] "main" (ex_dir (ex_named_place :: ex_defs)) (Ok [[lit "3"; lit "=(7 + 5%)"]]) F').
Proof.
  split; [apply not_read; vm_compute; reflexivity|]. split; eexists; apply (ex_run_yields _ _ _ _ _ false [["main"]]%string); vm_compute; reflexivity.
Qed.
Print Assumptions C81_place_refuted.
(** with an import, and a definition that uses a later one *)
Definition ex_uses : list item := [IUse (lit "lib"); IVar (lit "a") (NInfix (NRef (lit "b")) (lit "+") (NInt false None 1)); IVar (lit "b") (NInfix (NRef (lit "base")) (lit "*") (NInt false None 2))].
Definition ex_uses' : list item := [IUse (lit "lib"); IVar (lit "b") (NInfix (NRef (lit "base")) (lit "*") (NInt false None 2)); IVar (lit "a") (NInfix (NRef (lit "b")) (lit "+") (NInt false None 1))].
Definition ex_dir2 (l : list item) : fs :=
  {| sources := fun f => if path_eqb f [lit "main"] then Some (file_of l [lit "=a,=b"], 1) else sources (ex_files [(["lib"], "base := 10" ++ nl ++ "---" ++ nl, 1)]%string) f; objects := fun _ => None |}.
Lemma ex_dir2_reach p r : reachable (load_one (ex_E 5) (ex_dir2 ex_uses) true) (ex_main (ex_dir2 ex_uses)) p r -> p = [lit "lib"] /\ r = [lit "main"].
Proof.
  induction 1 as [p H|q r m p _ IH Ld H].
  - vm_compute in H. destruct H as [<-|[]]. split; vm_compute; reflexivity.
  - destruct IH as [-> ->]. assert (K : match load_one (ex_E 5) (ex_dir2 ex_uses) true [lit "lib"] [lit "main"] with Ok m => m_requires m = [] | _ => False end) by (vm_compute; reflexivity).
    rewrite Ld in K. rewrite K in H. destruct H.
Qed.
Example C82_nonvacuous :
  (Forall (item_ok (co_oracle ex_co)) ex_uses /\ uses_first ex_uses /\ uses_first ex_uses' /\ filter is_use ex_uses' = filter is_use ex_uses
   /\ Permutation ex_uses ex_uses' /\ NoDup (map item_key (definitions ex_uses)))
  /\ Forall (fun i => file_line (item_text i)) ex_uses
  /\ (same_elsewhere (ex_dir2 ex_uses) (ex_dir2 ex_uses') (lit "main") /\ objects_in_place (ex_dir2 ex_uses) /\ main_not_imported (ex_E 5) (ex_dir2 ex_uses) true (lit "main"))
  /\ (forall l, In l [ex_uses; ex_uses'] -> exists F', yields (ex_E 5) true [] "main" (ex_dir2 l) (Ok [[lit "=((10 * 2) + 1)"; lit "=(10 * 2)"]]) F').
Proof.
  split; [|split; [|split]].
  - split; [repeat constructor; try (vm_compute; reflexivity); try discriminate; simpl; auto 10; vm_compute; discriminate|].
    split; [reflexivity|]. split; [reflexivity|]. split; [reflexivity|]. split; [apply perm_skip, perm_swap|].
    vm_compute. constructor; [|constructor; [|constructor]]; intros H; repeat destruct H as [H|H]; try discriminate H; destruct H.
  - repeat constructor.
  - split; [|split].
    + intros f Hf. split; [|reflexivity]. cbn [sources ex_dir2]. destruct (LoaderProofs.path_eqb_spec f [lit "main"]) as [Eq|_]; [contradiction|reflexivity].
    + intros f m t H. discriminate H.
    + intros main Ld q r Hr. assert (Em : main = ex_main (ex_dir2 ex_uses)).
      { apply (f_equal (fun x => match x with Ok m => m | _ => main end)) in Ld. cbv beta iota in Ld. rewrite <- Ld. vm_compute. reflexivity. }
      rewrite Em in Hr. apply ex_dir2_reach in Hr as [-> ->]. vm_compute. discriminate.
  - intros l H. eexists. apply (ex_run_yields _ _ _ _ _ false [["lib"]; ["main"]]%string). destruct H as [<-|[<-|[]]]; vm_compute; reflexivity.
Qed.
