(** * EditLoad: compiling a main module before and after an edit. *)
From Verif Require Import Base BaseProofs Csvp SourceCode Ast AstParser Eval EvalSpec Options CellParser
  Sheet SheetSpec SheetProofs2 SourceSpec CodeSectionSpec Loader LoaderSpec LoaderProofs LoaderProofs2 LoaderProofs3 PropVariables PropLoader PropCache PropTarget PropCompile SameSpec SameProofs SameLoad.

(** what compiling yields, given what evaluating the sheet yields *)
Definition delivered (E : env) (uc : bool) (name : str) (o : outcome module_error spreadsheet) (r : outcome compile_error module) : Prop :=
  match o with
  | Ok s => if uc && negb (e_writable E [name]) then r = Err (NotWritten [name]) else exists m, r = Ok m /\ module_sheet m = s
  | Err e => r = Err (MainEval e)
  | Panic => r = Panic
  | NoFuel => r = NoFuel
  end.
Lemma finish_delivered E uc args name F m : m_needs_eval m = true -> m_file m = [name] ->
  delivered E uc name (omap pr_sheet (main_eval (e_sheet E) (e_sched E) (m_program m) args)) (fst (finish E uc args m F)).
Proof.
  intros Ne Fi. unfold finish. rewrite Ne. destruct (main_eval _ _ _ args) as [q|e| |]; cbn [omap delivered fst]; try reflexivity.
  destruct uc; cbn [andb]; [|eexists; split; reflexivity]. unfold write_object. cbn [m_file with_flags with_program]. rewrite Fi.
  destruct (e_writable E [name]); cbn [negb fst]; [eexists; split; reflexivity|reflexivity].
Qed.

Section Edit.
  Variables (E : env) (uc : bool) (args args' : list (str * node)) (name : str) (F F' : fs) (text text' : str) (time time' : nat) (p p' : program).
  Variable Q : outcome module_error spreadsheet -> outcome module_error spreadsheet -> Prop.
  Hypothesis No : no_object F [name] \/ older_object F [name].
  Hypothesis No' : no_object F' [name] \/ older_object F' [name].
  Hypothesis So : sources F [name] = Some (text, time).
  Hypothesis So' : sources F' [name] = Some (text', time').
  Hypothesis Ld : load_source (e_co E) text = Ok p.
  Hypothesis Ld' : load_source (e_co E) text' = Ok p'.
  Hypothesis Rq : pr_required p = pr_required p'.
  Hypothesis La : forall q w, reachable (load_one E F uc) (as_main E name p) q w -> load_one E F uc q w = load_one E F' uc q w.
  Hypothesis Sr : forall ld sc, merge_required (pr_required p) ld (pr_scope p) = Some sc ->
    exists sc', merge_required (pr_required p) ld (pr_scope p') = Some sc'
    /\ Q (omap pr_sheet (main_eval (e_sheet E) (e_sched E) {| pr_scope := sc; pr_sheet := pr_sheet p; pr_required := pr_required p |} args))
         (omap pr_sheet (main_eval (e_sheet E) (e_sched E) {| pr_scope := sc'; pr_sheet := pr_sheet p'; pr_required := pr_required p' |} args')).
  (** either evaluating the sheets is what decides, or both fail before it *)
  Definition both (r r' : outcome compile_error module) : Prop :=
    (exists o o', Q o o' /\ delivered E uc name o r /\ delivered E uc name o' r') \/ (is_ok r = false /\ r = r').
  Theorem edit_main r : compiles E uc args name F r -> exists r', compiles E uc args' name F' r' /\ both (fst r) (fst r').
  Proof.
    intro C. pose proof (load_as_main E F name text time p No So Ld) as Lm0. pose proof (load_as_main E F' name text' time' p' No' So' Ld') as Lm'.
    destruct C as [main sh t order Lm R O|e Lm|Lm]; rewrite Lm0 in Lm; try discriminate Lm. assert (Em : main = as_main E name p) by congruence. subst main. clear Lm Lm0.
    assert (Rm : m_requires (as_main E name p) = m_requires (as_main E name p')) by exact Rq.
    eexists. split.
    - eapply c_run; [exact Lm'| |].
      + apply (run_other_main _ (as_main E name p)); [exact Rm|reflexivity|]. eapply run_agree; [|exact R].
        exact La.
      + apply (order_other E name p p' Rq). exact O.
    - unfold compile_with. destruct (panicked t); [right; split; reflexivity|]. unfold load_main.
      assert (Ad : any_dirty (as_main E name p') (loaded sh) = any_dirty (as_main E name p) (loaded sh)).
      { unfold any_dirty, graph_nodes, edges, m_requires. cbn [m_path as_main m_program]. rewrite Rq. reflexivity. }
      rewrite Ad. clear Ad. destruct (any_dirty (as_main E name p) (loaded sh)); [right; split; reflexivity|].
      unfold eval_dependencies. pose proof (eval_in_order_fs E uc order (loaded sh) (map (fun pm => (fst pm, m_scope (snd pm))) (loaded sh)) F F') as X.
      destruct (eval_in_order E uc order (loaded sh) _ F) as [r F1]. destruct (eval_in_order E uc order (loaded sh) _ F') as [r' F2]. cbn [fst] in X. subst r'.
      destruct r as [ld|e| |]; try (right; split; reflexivity).
      unfold merge_direct_dependencies. destruct (failed sh); [|right; split; reflexivity].
      change (m_requires (as_main E name p)) with (pr_required p). change (m_requires (as_main E name p')) with (pr_required p').
      change (m_scope (as_main E name p)) with (pr_scope p). change (m_scope (as_main E name p')) with (pr_scope p').
      destruct (merge_required (pr_required p) ld (pr_scope p)) as [sc|] eqn:Mr; [|rewrite <- Rq, (merge_required_none _ _ _ (pr_scope p') Mr); right; split; reflexivity].
      destruct (Sr _ _ Mr) as [sc' [Mr' Res]]. rewrite Rq in Mr'. rewrite Mr'.
      left. do 2 eexists. split; [exact Res|]. split.
      + match goal with |- delivered _ _ _ _ (fst (finish _ _ _ ?m ?G)) => exact (finish_delivered E uc args name G m eq_refl eq_refl) end.
      + match goal with |- delivered _ _ _ _ (fst (finish _ _ _ ?m ?G)) => exact (finish_delivered E uc args' name G m eq_refl eq_refl) end.
  Qed.
End Edit.
(** if compiling the first version succeeds, evaluating it did, and the second is written if evaluating it succeeds *)
Lemma both_ok E uc name Q r r' m : both E uc name Q r r' -> r = Ok m ->
  exists o', Q (Ok (module_sheet m)) o' /\ match o' with Ok s => exists m', r' = Ok m' /\ module_sheet m' = s | Err e => r' = Err (MainEval e) | Panic => r' = Panic | NoFuel => r' = NoFuel end.
Proof.
  intros [[o [o' [H [D D']]]]|[X _]] ->; [|discriminate X]. unfold delivered in D. destruct o as [s|e| |]; try discriminate D. destruct (uc && negb (e_writable E [name])) eqn:Eb; [discriminate D|].
  destruct D as [m0 [Em <-]]. injection Em as <-. exists o'. split; [exact H|]. unfold delivered in D'. rewrite Eb in D'. exact D'.
Qed.
