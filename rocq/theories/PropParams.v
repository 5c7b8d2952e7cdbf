(** * PropParams: the names of the parameters of a function do not matter (C88). *)
From Verif Require Import Base BaseProofs Csvp SourceCode SourceSpec Ast AstProofs AstParser Eval EvalSpec FormulaSpec Options CellParser CodeSectionSpec CompileSpec
  Sheet SheetSpec SheetProofs2 Loader LoaderSpec ModuleProofs3 PropProgram PropCell PropSheet PropVariables PropLoader PropCache PropModules PropCompile SameSpec SameProofs SameLoad PropSame EditLoad PropEdit PropKey
  RenameSpec RenameProofs ParamProofs ParamProofs2 PropRename.

(** the same error, except that the definition of f named in it is the new one *)
Definition same_error_but (f : str) (g' : node) (e e' : compile_error) : Prop :=
  e' = e \/ exists at_ k ps b, e = MainEval (CellEval at_ k) /\ ee_function k = NFn ps b f
            /\ e' = MainEval (CellEval at_ {| ee_function := g'; ee_expected := ee_expected k; ee_received := ee_received k |}).
Definition same_result_but (f : str) (g' : node) (r r' : outcome compile_error module) : Prop :=
  match r, r' with
  | Ok m, Ok m' => alike_sheet (module_sheet m) (module_sheet m')
  | Err e, Err e' => same_error_but f g' e e'
  | Panic, Panic | NoFuel, NoFuel => True
  | _, _ => False
  end.
Lemma items_named l : forall sc, (forall f g, assoc f (functions sc) = Some g -> exists ps b, g = NFn ps b f) ->
  forall f g, assoc f (functions (fold_left item_scope l sc)) = Some g -> exists ps b, g = NFn ps b f.
Proof.
  induction l as [|i l IH]; intros sc H; [exact H|]. cbn [fold_left]. apply IH. destruct i as [m|x e|h ps b]; cbn [item_scope]; try exact H.
  intros f g. cbn [define_function functions]. destruct (str_eqb_spec f h) as [->|N]; [rewrite assoc_insert_same; intro E; injection E as <-; eauto|rewrite assoc_insert_other by exact N; apply H].
Qed.
Lemma items_last f ps b l2 : Forall (fun j => item_key j <> (2, f)) l2 -> forall sc, assoc f (functions sc) = Some (NFn ps b f) ->
  assoc f (functions (fold_left item_scope l2 sc)) = Some (NFn ps b f).
Proof.
  induction 1 as [|i l H _ IH]; intros sc A; [exact A|]. cbn [fold_left]. apply IH. destruct i as [m|x e|h ps0 b0]; cbn [item_scope define_function functions]; try exact A.
  rewrite assoc_insert_other; [exact A|]. intros ->. apply H. reflexivity.
Qed.

(** In the definition of a function a parameter may be given any other name that is not mentioned: the file, then, compiles to the same
    sheet, or fails with the same error. Neither the old nor the new name may be read elsewhere as the name of a value, nor read as a
    place in a sheet, nor be one of the two words that the parser takes for values. *)
Theorem C88_parameters : forall E use_cache kvs args name F F' l1 l2 f ps body a b rows time time' p,
  (forall at_, is_order (ev_order (e_sheet E) at_)) -> parse_key_values (co_oracle (e_co E)) kvs [] = Ok args ->
  let l := l1 ++ IFn f ps body :: l2 in
  let l' := l1 ++ IFn f (map (swap a b) ps) (rename (swaps a b) body) :: l2 in
  Forall (item_ok (co_oracle (e_co E))) l -> Forall (item_ok (co_oracle (e_co E))) l' -> Forall (fun j => is_use j = false) (l1 ++ l2) ->
  Forall (fun j => file_line (item_text j)) l -> Forall (fun j => file_line (item_text j)) l' -> Forall file_line rows ->
  Forall (fun j => item_key j <> (2, f)) l2 ->
  sources F [name] = Some (file_of l rows, time) -> no_object F [name] \/ older_object F [name] ->
  sources F' [name] = Some (file_of l' rows, time') -> no_object F' [name] \/ older_object F' [name] ->
  load_source (e_co E) (file_of l rows) = Ok p ->
  ~ In b ps -> ~ reads_name p args a -> ~ place_name a -> ~ reads_name p args b -> ~ place_name b ->
  ~ In a [lit "TRUE"; lit "FALSE"] -> ~ In b [lit "TRUE"; lit "FALSE"] ->
  forall r r', compiles E use_cache args name F r -> compiles E use_cache args name F' r' ->
  same_result_but f (NFn (map (swap a b) ps) (canonical (rename (swaps a b) body)) f) (fst r) (fst r').
Proof.
  intros E uc kvs args name F F' l1 l2 f ps body a b rows time time' p Or K l l' Ho Ho' Hu Hl Hl' Hr Hk So No So' No' Ld Nb Ra Pa Rb Pb Ta Tb r r' C C'.
  assert (Hu1 : Forall (fun j => is_use j = false) l) by (apply Forall_app in Hu as [A B]; apply Forall_app; split; [exact A|constructor; [reflexivity|exact B]]).
  assert (Hu' : Forall (fun j => is_use j = false) l') by (apply Forall_app in Hu as [A B]; apply Forall_app; split; [exact A|constructor; [reflexivity|exact B]]).
  assert (Uf : forall l, Forall (fun j => is_use j = false) l -> uses_first l /\ concat (map item_modules l) = []).
  { clear. intros l H. split.
    - destruct H as [|j l H1 H2]; [exact I|]. cbn [uses_first]. rewrite H1. apply forallb_forall. intros z Hz. rewrite Forall_forall in H2. rewrite (H2 z Hz). reflexivity.
    - induction H as [|j l H1 _ IH]; [reflexivity|]. cbn [map concat]. rewrite IH. destruct j; [discriminate H1|reflexivity..]. }
  destruct (Uf _ Hu1) as [U1 M1]. destruct (Uf _ Hu') as [U2 M2].
  destruct (load_file _ _ _ _ Ho U1 Hl Hr Ld) as [Sc1 [Rq1 _]].
  destruct (load_file_again _ _ _ _ _ Ho U1 Hl Hr Ho' U2 Hl' Ld) as [p' [Ld' [Sc2 [Rq2 Al]]]].
  pose proof (load_source_unique _ _ _ Ld) as [_ Un]. pose proof (load_source_unique _ _ _ Ld') as [_ Un'].
  assert (Ua : NoDup (map fst args)) by (eapply key_values_unique; [|exact K]; constructor).
  destruct (load_plain _ _ _ Ld) as [Dp [Sp _]].
  assert (Ep : forall x e, assoc x args = Some e -> plain e) by (eapply key_values_plain; [|exact K]; intros x e X; discriminate X).
  assert (Cr : canonical (rename (swaps a b) body) = rename (swaps a b) (canonical body)).
  { apply canonical_rename; cbn [rn_value swaps]; apply swap_other; intros X; first [apply Ta; rewrite <- X; cbn [In]; auto; fail|apply Tb; rewrite <- X; cbn [In]; auto; fail]. }
  rewrite Cr.
  assert (Hv : variables (pr_scope p') = variables (pr_scope p)).
  { rewrite Sc1, Sc2. unfold l, l'. rewrite !fold_left_app. cbn [fold_left item_scope]. generalize (fold_left item_scope l1 empty_scope). intro sc. clear.
    assert (G : forall sc sc', variables sc' = variables sc -> variables (fold_left item_scope l2 sc') = variables (fold_left item_scope l2 sc)).
    { induction l2 as [|i l2 IH]; intros sc0 sc1 H; [exact H|]. cbn [fold_left]. apply IH. destruct i; cbn [item_scope define_variable define_function variables]; congruence. }
    apply G. reflexivity. }
  assert (Hg : assoc f (functions (pr_scope p)) = Some (NFn ps (canonical body) f)).
  { rewrite Sc1. unfold l. rewrite fold_left_app. cbn [fold_left]. apply items_last; [exact Hk|]. cbn [item_scope define_function functions]. apply assoc_insert_same. }
  assert (Hg' : assoc f (functions (pr_scope p')) = Some (NFn (map (swap a b) ps) (rename (swaps a b) (canonical body)) f)).
  { rewrite Sc2. unfold l'. rewrite fold_left_app. cbn [fold_left]. apply items_last; [exact Hk|]. cbn [item_scope define_function functions]. rewrite Cr. apply assoc_insert_same. }
  assert (Hf : forall h, h <> f -> assoc h (functions (pr_scope p')) = assoc h (functions (pr_scope p))).
  { rewrite Sc1, Sc2. unfold l, l'. rewrite !fold_left_app. cbn [fold_left]. intros h Nh.
    apply (items_agree (fun _ => True) (fun h => h <> f) l2); [|exact Nh]. clear. split; intros x K; [reflexivity|]. cbn [item_scope define_function functions]. rewrite !assoc_insert_other by exact K. reflexivity. }
  assert (Nm : forall h g, assoc h (functions (pr_scope p)) = Some g -> exists ps b, g = NFn ps b h) by (rewrite Sc1; apply items_named; intros ? ? X; discriminate X).
  set (p2 := {| pr_scope := pr_scope p'; pr_sheet := pr_sheet p; pr_required := pr_required p |}).
  assert (M : omap pr_sheet (main_eval (e_sheet E) (e_sched E) p2 args) = rmap (fun s => s) (params_error f a b ps (canonical body)) (omap pr_sheet (main_eval (e_sheet E) (e_sched E) p args))).
  { apply main_params; try assumption; intros [X|X]; auto. }
  assert (S2 : same_result pr_sheet (main_eval (e_sheet E) (e_sched E) p2 args) (main_eval (e_sheet E) (e_sched E) p' args)).
  { apply same_programs; try assumption. split; intros x _; [split|]; reflexivity. }
  assert (Rq : pr_required p = []) by congruence. assert (Rq' : pr_required p' = []) by congruence.
  destruct (edit_main E uc args args name F F' (file_of l rows) (file_of l' rows) time time' p p'
    (fun o o' => same_result (fun s => s) (rmap (fun s => s) (params_error f a b ps (canonical body)) o) o') No No' So So' Ld Ld' ltac:(congruence)) with (r := r) as [r1 [C1 Bo]].
  - intros q w H. destruct (no_imports_reach _ _ _ _ _ _ Rq H).
  - intros ld sc Mr. rewrite Rq in *. cbn [merge_required] in *. injection Mr as <-. eexists. split; [reflexivity|].
    replace {| pr_scope := pr_scope p; pr_sheet := pr_sheet p; pr_required := [] |} with p by (destruct p; cbn in *; congruence).
    replace {| pr_scope := pr_scope p'; pr_sheet := pr_sheet p'; pr_required := pr_required p' |} with p' by (destruct p'; reflexivity).
    rewrite <- M. clear -S2. destruct (main_eval _ _ p2 args), (main_eval _ _ p' args); exact S2.
  - exact C.
  - rewrite (no_imports_one E uc args name F' _ time' p' r' r1 No' So' Ld' Rq' C' C1).
    assert (Pe : forall e, same_error_but f (NFn (map (swap a b) ps) (rename (swaps a b) (canonical body)) f) (MainEval e) (MainEval (params_error f a b ps (canonical body) e))).
    { intros [|at_ k]; [left; reflexivity|]. cbn [params_error]. unfold other_params. destruct (ee_function k) as [ | | |ps0 b0 h| | | | | |] eqn:Ek; try (left; reflexivity).
      destruct (str_eqb_spec h f) as [->|N]; [|left; reflexivity]. right. exists at_, k, ps0, b0. auto. }
    destruct Bo as [[o [o' [Q [D D']]]]|[N1 N2]].
    + unfold delivered in D, D'. destruct o as [s|e| |], o' as [s'|e'| |]; try (destruct Q).
      * destruct (uc && negb (e_writable E [name])); [rewrite D, D'; left; reflexivity|]. destruct D as [m1 [-> <-]], D' as [m2 [-> <-]]. split; assumption.
      * rewrite D, D'. apply Pe.
      * rewrite D, D'. exact I.
      * rewrite D, D'. exact I.
    + rewrite <- N2. destruct (fst r); [discriminate N1|left; reflexivity|exact I..].
Qed.
Print Assumptions C88_parameters.

(** *** Examples *)
Lemma not_read_outside p ext x : forallb (fun n => negb (str_in x (ref_names n))) (all_formulas p ext) = true ->
  forallb (fun kg => negb (str_in x (ref_names (snd kg))) || str_in x (parameters_of (snd kg))) (functions (pr_scope p)) = true -> ~ reads_name p ext x.
Proof.
  rewrite !forallb_forall. intros H G [[n [Hn Hx]]|[f [g [Hf [Hx Np]]]]].
  - specialize (H n (formula_in_all _ _ _ Hn)). apply str_in_spec in Hx. rewrite Hx in H. discriminate H.
  - apply assoc_In in Hf. specialize (G _ Hf). cbn [snd] in G. apply str_in_spec in Hx. rewrite Hx in G. cbn [negb orb] in G. apply str_in_spec in G. contradiction.
Qed.
Definition ex_sum (x : string) : list item :=
  [IFn (lit "total") [lit x; lit "y"] (NInfix (NRef (lit x)) (lit "+") (NInfix (NRef (lit "y")) (lit "*") (NRef (lit "rate"))))].
Definition ex_sum_rows : list str := [lit "[[var=c]]3,""=total(c, 2)"",""=total(total(c, 1), c)"",""=total(z, 4)"",end"].
Definition ex_sum_file (x : string) : string := ("rate := 5%" ++ nl ++ "fn total(" ++ x ++ ", y) (" ++ x ++ " + (y * rate))" ++ nl ++ "---" ++ nl ++ "[[var=c]]3,""=total(c, 2)"",""=total(total(c, 1), c)"",""=total(z, 4)"",end" ++ nl)%string.
Definition ex_rate : list item := [IVar (lit "rate") (NInt true None 5)].
Lemma ex_sum_ok x : In x ["x"; "amount"]%string -> Forall (item_ok (co_oracle ex_co)) (ex_rate ++ ex_sum x) /\ Forall (fun i => file_line (item_text i)) (ex_rate ++ ex_sum x).
Proof. intros [<-|[<-|[]]]; (split; [repeat constructor; try (vm_compute; reflexivity); try discriminate; simpl; auto 10; vm_compute; discriminate|repeat constructor]). Qed.
(** the parameter x becomes amount; the calls are nested, and a name that is not known stays *)
Example C88_nonvacuous : let p := ex_load (ex_sum_file "x") in
  map (fun i => match i with IFn f ps b => IFn f (map (swap (lit "x") (lit "amount")) ps) (rename (swaps (lit "x") (lit "amount")) b) | _ => i end) (ex_sum "x") = ex_sum "amount"
  /\ (forall x, In x ["x"; "amount"]%string -> file_of (ex_rate ++ ex_sum x) ex_sum_rows = lit (ex_sum_file x) /\ Forall (item_ok (co_oracle ex_co)) (ex_rate ++ ex_sum x) /\ Forall (fun i => file_line (item_text i)) (ex_rate ++ ex_sum x))
  /\ Forall file_line ex_sum_rows /\ load_source ex_co (lit (ex_sum_file "x")) = Ok p
  /\ (forall x, In x ["x"; "amount"]%string -> ~ reads_name p [] (lit x) /\ ~ place_name (lit x))
  /\ (forall x, In x ["x"; "amount"]%string -> exists F', yields (ex_E 9) true [] "main" (ex_one (ex_sum_file x))
        (Ok [[lit "3"; lit "=(A1 + (2 * 5%))"; lit "=((A1 + (1 * 5%)) + (A1 * 5%))"; lit "=(z + (4 * 5%))"; lit "end"]]) F').
Proof.
  cbv zeta. split; [vm_compute; reflexivity|]. split.
  { intros x H. destruct (ex_sum_ok x H) as [A B]. split; [|split; assumption]. destruct H as [<-|[<-|[]]]; vm_compute; reflexivity. }
  split; [repeat constructor|]. split; [vm_compute; reflexivity|]. split.
  { intros x [<-|[<-|[]]]; (split; [apply not_read_outside; vm_compute; reflexivity|eapply not_place; [vm_compute; reflexivity|reflexivity]]). }
  intros x [<-|[<-|[]]]; eexists; apply (ex_run_yields _ _ _ _ _ false [["main"]]%string); vm_compute; reflexivity.
Qed.
(** The names must not be read elsewhere: the arguments are put in one after the other, so a later parameter also replaces its name in
    the arguments before it. *)
Definition ex_captured (y : string) : string := ("fn less(x, " ++ y ++ ") x - " ++ y ++ nl ++ "---" ++ nl ++ """=less(y, 1)"",end")%string.
Theorem C88_read_elsewhere_refuted :
  (exists F', yields (ex_E 5) true [] "main" (ex_one (ex_captured "y")) (Ok [[lit "=(1 - 1)"; lit "end"]]) F')
  /\ (exists F', yields (ex_E 5) true [] "main" (ex_one (ex_captured "w")) (Ok [[lit "=(y - 1)"; lit "end"]]) F').
Proof. split; eexists; apply (ex_run_yields _ _ _ _ _ false [["main"]]%string); vm_compute; reflexivity. Qed.
Print Assumptions C88_read_elsewhere_refuted.
