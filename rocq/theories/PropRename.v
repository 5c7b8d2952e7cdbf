(** * PropRename: names do not matter (C87). *)
From Verif Require Import Base BaseProofs Csvp SourceCode SourceSpec Ast AstProofs AstParser Eval EvalSpec FormulaSpec Options CellParser CodeSectionSpec CompileSpec
  Sheet SheetSpec SheetProofs2 Loader LoaderSpec PropCell PropSheet PropVariables PropLoader PropCache PropModules PropCompile SameSpec SameProofs SameLoad PropSame EditLoad PropEdit RenameSpec RenameProofs ParamProofs.

(** A program in which the names are replaced by other names, one by one, compiles to the same sheet with these names (those that are still
    in it), or fails with the same error with these names; and every result of the one is one of the other: what is compared are the
    results that are possible, because the order in which names are found in a hash map is another with other names. *)
Theorem C87_renaming : forall m E use_cache args args' kvs kvs' name F F' text text' time time' p p',
  renames m -> (forall a, is_order (ev_order (e_sheet E) a)) ->
  parse_key_values (co_oracle (e_co E)) kvs [] = Ok args -> parse_key_values (co_oracle (e_co E)) kvs' [] = Ok args' -> renamed_definitions m (rn_value m) args args' ->
  sources F [name] = Some (text, time) -> no_object F [name] \/ older_object F [name] ->
  sources F' [name] = Some (text', time') -> no_object F' [name] \/ older_object F' [name] ->
  load_source (e_co E) text = Ok p -> load_source (e_co E) text' = Ok p' -> pr_required p = [] -> pr_required p' = [] -> renamed_program m p p' ->
  forall r, compiles E use_cache args name F r ->
  exists E' r', other_orders E E' /\ (forall a, is_order (ev_order (e_sheet E') a)) /\ compiles E' use_cache args' name F' r' /\ renamed_result m (fst r) (fst r').
Proof.
  intros m E uc args args' kvs kvs' name F F' text text' time time' p p' [[vi [V1 V2]] [[fi [F1 F2]] Pl]] Or K K' Ka So No So' No' Ld Ld' Rq Rq' Rp r C.
  pose proof (load_source_unique _ _ _ Ld) as [_ U]. pose proof (load_source_unique _ _ _ Ld') as [_ U'].
  assert (Ua : NoDup (map fst args)) by (eapply key_values_unique; [|exact K]; constructor).
  assert (Ua' : NoDup (map fst args')) by (eapply key_values_unique; [|exact K']; constructor).
  set (E' := {| e_version := e_version E; e_co := e_co E; e_writable := e_writable E; e_now := e_now E; e_sheet := {| ev_fuel := ev_fuel (e_sheet E); ev_order := fun a => rename_order m vi fi (ev_order (e_sheet E) a) |}; e_sched := e_sched E; e_fuel := e_fuel E; e_order := e_order E; e_keys := e_keys E |}).
  pose proof (load_as_main E F name text time p No So Ld) as Lm. assert (Lm' : load_from_cache_from_filename E' F' [name] [name] = Ok (as_main E' name p')) by (exact (load_as_main E' F' name text' time' p' No' So' Ld')).
  destruct C as [main sh t order L1 R1 O1|e L1|L1]; rewrite Lm in L1; try discriminate L1. assert (E1 : main = as_main E name p) by congruence. subst main.
  rewrite compile_no_imports by (try assumption; exact Rq). destruct (run_no_imports_exists (load_one E' F' uc) (as_main E' name p') Rq') as [sh' R2].
  exists E'. eexists. split; [repeat split|]. split; [intro a; apply rename_order_ok; auto|]. split.
  - eapply c_run; [exact Lm'|exact R2|]. destruct (run_no_imports _ (as_main E' name p') _ _ Rq' R2) as [-> _]. apply order_no_imports. exact Rq'.
  - rewrite compile_no_imports by (try assumption; exact Rq').
    match goal with |- renamed_result _ (fst (finish _ _ _ ?k ?G)) (fst (finish _ _ _ ?k' ?G')) => pose proof (finish_delivered E uc args name G k eq_refl eq_refl) as D; pose proof (finish_delivered E' uc args' name G' k' eq_refl eq_refl) as D'; set (q := fst (finish _ _ _ k G)) in *; set (q' := fst (finish _ _ _ k' G')) in * end.
    clearbody q q'. cbn [m_program with_flags with_scope with_program as_main m_scope] in D, D'. cbn [e_sheet e_sched E'] in D'.
    match type of D with delivered _ _ _ (omap _ (main_eval _ _ ?a _)) _ => assert (A : a = p) by (destruct p; reflexivity); rewrite A in D; clear A end.
    match type of D' with delivered _ _ _ (omap _ (main_eval _ _ ?a _)) _ => assert (A : a = p') by (destruct p'; reflexivity); rewrite A in D'; clear A end.
    set (ev' := e_sheet E') in *. change {| ev_fuel := ev_fuel (e_sheet E); ev_order := fun a => rename_order m vi fi (ev_order (e_sheet E) a) |} with ev' in D'.
    assert (Fo : env_follows m (e_sheet E) ev') by (split; [reflexivity|]; intro a; split; intros k l; [apply rename_order_values|apply rename_order_fns]; assumption).
    pose proof (main_renamed m vi fi (e_sheet E) ev' (e_sched E) p p' args args' V1 F1 Pl Fo U Ua U' Ua' Rp Ka) as M.
    unfold delivered in D, D'. change (e_writable E') with (e_writable E) in D'.
    destruct (main_eval (e_sheet E) (e_sched E) p args) as [o|e| |], (main_eval ev' (e_sched E) p' args') as [o'|e'| |]; cbn [omap rmap] in *; try discriminate M.
    + destruct (uc && negb (e_writable E [name])); [subst q q'; reflexivity|]. destruct D as [a [-> Ea]], D' as [a' [-> Ea']]. cbn [renamed_result]. rewrite Ea, Ea'. apply sheets_renamed. congruence.
    + subst q q'. cbn [renamed_result renamed_error]. injection M as ->. destruct e; reflexivity.
    + subst q q'. exact I.
    + subst q q'. exact I.
Qed.
Print Assumptions C87_renaming.

(** If no name that was replaced is left in the formulas of the result, the output is the same, text for text. *)
Theorem C87_same_texts : forall m s s', renamed_sheet m s s' ->
  (forall r c n, In r (sheet_rows s) -> In c (row_cells r) -> cell_ast c = Some n -> rename m n = n) -> sheet_texts s' = sheet_texts s.
Proof.
  intros m s s' [_ H] N. unfold sheet_texts. induction H as [|r r' l l' H _ IH]; [reflexivity|]. cbn [map]. rewrite IH by (intros ? ? ? H1; apply N; right; exact H1). f_equal.
  destruct H as [_ [_ [_ H]]]. assert (N' : forall c n, In c (row_cells r) -> cell_ast c = Some n -> rename m n = n) by (intros c n; apply N; left; reflexivity). clear N IH.
  induction H as [|c c' k k' H _ IH]; [reflexivity|]. cbn [map]. rewrite IH by (intros ? ? H1; apply N'; right; exact H1). f_equal. destruct H as [H1 [H2 _]]. unfold show_cell. rewrite H1.
  destruct (cell_ast c) as [n|] eqn:Ec; [|cbn [option_map]; apply H2; reflexivity]. cbn [option_map]. rewrite (N' c n) by (auto; left; reflexivity). reflexivity.
Qed.
Print Assumptions C87_same_texts.

(** ** Renaming in the code section *)
Definition rename_item (m : renaming) (i : item) : item :=
  match i with IUse k => IUse k | IVar x e => IVar (rn_value m x) (rename m e) | IFn f ps b => IFn (rn_fn m f) (map (rn_value m) ps) (rename m b) end.
Lemma canonical_rename m : rn_value m (lit "TRUE") = lit "TRUE" -> rn_value m (lit "FALSE") = lit "FALSE" -> forall n, canonical (rename m n) = rename m (canonical n).
Proof.
  intros T N. apply node_induction; intros; try reflexivity.
  - destruct b; cbn [rename canonical show]; rewrite ?T, ?N; reflexivity.
  - cbn [rename canonical]. destruct (whole_text _); reflexivity.
  - cbn [rename canonical]. f_equal. rewrite !map_map. apply map_ext_in. rewrite Forall_forall in H. exact H.
  - cbn [rename canonical]. congruence.
Qed.
Definition injective (f : str -> str) : Prop := forall x y, f x = f y -> x = y.
Lemma insert_renamed_by m nm x n l l' : injective nm -> renamed_definitions m nm l l' -> renamed_definitions m nm (assoc_insert x n l) (assoc_insert (nm x) (rename m n) l').
Proof.
  intros I H y. destruct (str_eqb_spec y x) as [->|N]; [rewrite !assoc_insert_same; reflexivity|]. rewrite (assoc_insert_other x y) by exact N. rewrite assoc_insert_other; [apply H|]. intro X. exact (N (I _ _ X)).
Qed.
Lemma items_renamed m : injective (rn_value m) -> injective (rn_fn m) -> rn_value m (lit "TRUE") = lit "TRUE" -> rn_value m (lit "FALSE") = lit "FALSE" -> forall l sc sc',
  renamed_definitions m (rn_value m) (variables sc) (variables sc') -> renamed_definitions m (rn_fn m) (functions sc) (functions sc') ->
  renamed_definitions m (rn_value m) (variables (fold_left item_scope l sc)) (variables (fold_left item_scope (map (rename_item m) l) sc'))
  /\ renamed_definitions m (rn_fn m) (functions (fold_left item_scope l sc)) (functions (fold_left item_scope (map (rename_item m) l) sc')).
Proof.
  intros Iv If T N. induction l as [|i l IH]; intros sc sc' Hv Hf; cbn [map fold_left]; [auto|]. apply IH; destruct i as [k|x e|g ps b]; cbn [rename_item item_scope define_variable define_function variables functions]; auto.
  - rewrite (canonical_rename m T N). apply (insert_renamed_by m _ x (NVar x (VAst (canonical e)))); assumption.
  - rewrite (canonical_rename m T N). apply (insert_renamed_by m _ g (NFn ps (canonical b) g)); assumption.
Qed.
(** In the text of the file: the names in the code section are replaced, and the sheet and the command line mention none of those that change. *)
Theorem C87_code : forall m E use_cache kvs args name F F' l rows time time' p,
  renames m -> rn_value m (lit "TRUE") = lit "TRUE" -> rn_value m (lit "FALSE") = lit "FALSE" -> (forall a, is_order (ev_order (e_sheet E) a)) ->
  parse_key_values (co_oracle (e_co E)) kvs [] = Ok args -> renamed_definitions m (rn_value m) args args ->
  let l' := map (rename_item m) l in
  Forall (item_ok (co_oracle (e_co E))) l -> Forall (item_ok (co_oracle (e_co E))) l' -> Forall (fun j => is_use j = false) l ->
  Forall (fun j => file_line (item_text j)) l -> Forall (fun j => file_line (item_text j)) l' -> Forall file_line rows ->
  sources F [name] = Some (file_of l rows, time) -> no_object F [name] \/ older_object F [name] ->
  sources F' [name] = Some (file_of l' rows, time') -> no_object F' [name] \/ older_object F' [name] ->
  load_source (e_co E) (file_of l rows) = Ok p -> renamed_sheet m (pr_sheet p) (pr_sheet p) ->
  forall r, compiles E use_cache args name F r ->
  exists E' r', other_orders E E' /\ (forall a, is_order (ev_order (e_sheet E') a)) /\ compiles E' use_cache args name F' r' /\ renamed_result m (fst r) (fst r').
Proof.
  intros m E uc kvs args name F F' l rows time time' p R T N Or K Ka l' Ho Ho' Hu Hl Hl' Hr So No So' No' Ld Rs r C.
  assert (Hu' : Forall (fun j => is_use j = false) l') by (unfold l'; apply Forall_map; eapply Forall_impl; [|exact Hu]; intros [] H; [discriminate H|reflexivity..]).
  assert (Uf : forall l, Forall (fun j => is_use j = false) l -> uses_first l /\ concat (map item_modules l) = []).
  { clear. intros l H. split.
    - destruct H as [|j l H1 H2]; [exact I|]. cbn [uses_first]. rewrite H1. apply forallb_forall. intros z Hz. rewrite Forall_forall in H2. rewrite (H2 z Hz). reflexivity.
    - induction H as [|j l H1 _ IH]; [reflexivity|]. cbn [map concat]. rewrite IH. destruct j; [discriminate H1|reflexivity..]. }
  destruct (Uf _ Hu) as [U1 M1]. destruct (Uf _ Hu') as [U2 M2].
  destruct (load_file _ _ _ _ Ho U1 Hl Hr Ld) as [Sc1 [Rq1 _]].
  destruct (load_file_again _ _ _ _ _ Ho U1 Hl Hr Ho' U2 Hl' Ld) as [p' [Ld' [Sc2 [Rq2 Al]]]].
  assert (Iv : injective (rn_value m)) by (destruct R as [[vi [V1 _]] _]; intros x y H; rewrite <- (V1 x), <- (V1 y), H; reflexivity).
  assert (If : injective (rn_fn m)) by (destruct R as [_ [[fi [F1 _]] _]]; intros x y H; rewrite <- (F1 x), <- (F1 y), H; reflexivity).
  eapply (C87_renaming m E uc args args kvs kvs name F F' _ _ time time' p p' R Or K K Ka So No So' No' Ld Ld'); [congruence|congruence| |exact C].
  destruct (items_renamed m Iv If T N l empty_scope empty_scope) as [A B]; [intro x; reflexivity..|]. split; [rewrite Sc1, Sc2; exact A|]. split; [rewrite Sc1, Sc2; exact B|].
  destruct Al as [A1 A2], Rs as [B1 B2]. split; [congruence|]. clear -A2 B2. revert B2. induction A2 as [|r r' k k' H _ IH]; intro B; inversion B as [|r1 r2 k1 k2 H1 H2 E1 E2]; subst; constructor; auto.
  destruct H as [X1 [X2 [X3 X4]]], H1 as [Y1 [Y2 [Y3 Y4]]]. split; [congruence|]. split; [congruence|]. split; [congruence|]. clear -X4 Y4. revert Y4. induction X4 as [|c c' k k' H _ IH]; intro B; inversion B as [|r1 r2 k1 k2 H1 H2 E1 E2]; subst; constructor; auto.
  destruct H as [X1 [X2 [X3 X4']]], H1 as [Y1 [Y2 [Y3 Y4]]]. split; [congruence|]. split; [intros _; congruence|]. split; congruence.
Qed.
Print Assumptions C87_code.

(** *** Examples *)
Ltac renamed := vm_compute; repeat (constructor || reflexivity || (let H := fresh in intro H; discriminate H)).
Lemma swap_renames a b f g : ~ place_name a -> ~ place_name b -> renames {| rn_value := swap a b; rn_fn := swap f g |}.
Proof.
  intros A B. split; [exists (swap a b); split; apply swap_back|]. split; [exists (swap f g); split; apply swap_back|]. intros x P. cbn [rn_value]. unfold swap.
  destruct (str_eqb_spec x a) as [->|_]; [destruct (A P)|]. destruct (str_eqb_spec x b) as [->|_]; [destruct (B P)|reflexivity].
Qed.
Lemma definitions_check m nm l l' : injective nm -> l' = map (fun kv => (nm (fst kv), rename m (snd kv))) l -> renamed_definitions m nm l l'.
Proof.
  intros I -> x. induction l as [|[k v] l IH]; [reflexivity|]. cbn [map fst snd assoc]. destruct (str_eqb_spec x k) as [->|N]; [destruct (str_eqb_spec (nm k) (nm k)) as [_|X]; [reflexivity|destruct (X eq_refl)]|].
  destruct (str_eqb_spec (nm x) (nm k)) as [X|_]; [destruct (N (I _ _ X))|exact IH].
Qed.
Lemma swap_injective a b : injective (swap a b).
Proof. intros x y H. rewrite <- (swap_back a b x), <- (swap_back a b y), H. reflexivity. Qed.
Definition ex_names : renaming := {| rn_value := swap (lit "x") (lit "price"); rn_fn := swap (lit "add") (lit "plus") |}.
Definition ex_before : string := "rate := 2" ++ nl ++ "fn add(x) x + rate" ++ nl ++ "---" ++ nl ++ "[[var=x]]3,=add(x),=other(x)".
Definition ex_after : string := "rate := 2" ++ nl ++ "fn plus(price) price + rate" ++ nl ++ "---" ++ nl ++ "[[var=price]]3,=plus(price),=other(price)".
(** the name of a cell and the name of a function are replaced *)
Example C87_nonvacuous :
  renames ex_names /\ load_source ex_co (lit ex_before) = Ok (ex_load ex_before) /\ load_source ex_co (lit ex_after) = Ok (ex_load ex_after)
  /\ renamed_program ex_names (ex_load ex_before) (ex_load ex_after)
  /\ (exists F', yields (ex_E 5) true [] "main" (ex_one ex_before) (Ok [[lit "3"; lit "=(A1 + 2)"; lit "=other(A1)"]]) F')
  /\ (exists F', yields (ex_E 5) true [] "main" (ex_one ex_after) (Ok [[lit "3"; lit "=(A1 + 2)"; lit "=other(A1)"]]) F').
Proof.
  split; [apply swap_renames; (eapply not_place; [vm_compute; reflexivity|reflexivity])|]. split; [vm_compute; reflexivity|]. split; [vm_compute; reflexivity|]. split.
  - split; [apply definitions_check; [apply swap_injective|vm_compute; reflexivity]|]. split; [apply definitions_check; [apply swap_injective|vm_compute; reflexivity]|]. split; [vm_compute; reflexivity|].
    renamed.
  - split; eexists; apply (ex_run_yields _ _ _ _ _ false [["main"]]%string); vm_compute; reflexivity.
Qed.
Definition ex_tax : renaming := {| rn_value := swap (lit "rate") (lit "tax"); rn_fn := fun f => f |}.
(** the name of a variable of the code section is replaced *)
Example C87_code_nonvacuous : let l' := map (rename_item ex_tax) ex_defs in
  renames ex_tax /\ file_of l' ex_rows = lit ("tax := 5%" ++ nl ++ "fn add(a) (a + tax)" ++ nl ++ "---" ++ nl ++ "[[var=x]]3,=add(x)" ++ nl)
  /\ Forall (item_ok (co_oracle ex_co)) l' /\ Forall (fun j => file_line (item_text j)) l' /\ renamed_sheet ex_tax (pr_sheet (ex_same ex_defs)) (pr_sheet (ex_same ex_defs))
  /\ (exists F', yields (ex_E 5) true [] "main" (ex_dir l') (Ok [[lit "3"; lit "=(A1 + 5%)"]]) F').
Proof.
  cbv zeta. split.
  { split; [exists (swap (lit "rate") (lit "tax")); split; apply swap_back|]. split; [exists (fun f => f); auto|]. intros x P. cbn [rn_value ex_tax]. unfold swap.
    destruct (str_eqb_spec x (lit "rate")) as [->|_]; [exfalso; revert P; eapply not_place; [vm_compute; reflexivity|reflexivity]|].
    destruct (str_eqb_spec x (lit "tax")) as [->|_]; [exfalso; revert P; eapply not_place; [vm_compute; reflexivity|reflexivity]|reflexivity]. }
  split; [vm_compute; reflexivity|]. split; [repeat constructor; try (vm_compute; reflexivity); try discriminate; simpl; auto 10; vm_compute; discriminate|].
  split; [repeat constructor|]. split; [split; [reflexivity|]; renamed|].
  eexists. apply (ex_run_yields _ _ _ _ _ false [["main"]]%string). vm_compute. reflexivity.
Qed.
(** A name may not become that of a place: the variable then takes the place of the references that named cells stand for. *)
Theorem C87_place_refuted : exists m, (exists back, (forall x, back (rn_value m x) = x) /\ (forall x, rn_value m (back x) = x)) /\ rn_fn m = (fun f => f) /\
  let t := ("rate := 2" ++ nl ++ "---" ++ nl ++ "[[var=x]]3,=x + rate")%string in let t' := ("A1 := 2" ++ nl ++ "---" ++ nl ++ "[[var=x]]3,=x + A1")%string in
  renamed_program m (ex_load t) (ex_load t')
  /\ (exists F', yields (ex_E 5) true [] "main" (ex_one t) (Ok [[lit "3"; lit "=(A1 + 2)"]]) F')
  /\ (exists F', yields (ex_E 5) true [] "main" (ex_one t') (Ok [[lit "3"; lit "=(2 + 2)"]]) F').
Proof.
  exists {| rn_value := swap (lit "rate") (lit "A1"); rn_fn := fun f => f |}. split; [exists (swap (lit "rate") (lit "A1")); split; apply swap_back|]. split; [reflexivity|]. cbv zeta. split.
  - split; [apply definitions_check; [apply swap_injective|vm_compute; reflexivity]|]. split; [apply definitions_check; [intros ? ? H; exact H|vm_compute; reflexivity]|]. split; [vm_compute; reflexivity|].
    renamed.
  - split; eexists; apply (ex_run_yields _ _ _ _ _ false [["main"]]%string); vm_compute; reflexivity.
Qed.
Print Assumptions C87_place_refuted.
