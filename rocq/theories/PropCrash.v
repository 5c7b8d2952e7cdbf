(** * PropCrash: why a run can crash (C96). *)
From Verif Require Import Base BaseProofs Csvp SourceCode Ast AstProofs AstParser Eval EvalSpec EvalProofs EvalRounds Options CellParser PropCell Sheet SheetProofs2 SheetProofs3 ParsedPlain ParamProofs ModuleProofs ModuleProofs3 Loader LoaderSpec LoaderProofs LoaderProofs2 LoaderProofs3
  HistorySpec HistoryProofs CrashSpec Files Cli PropLoader PropCache PropModules PropDisk PropCli PanicSpec PropPanic ReadTerminates.

Ltac np := first [discriminate | contradiction | assumption].
(** ** Evaluating never crashes where every variable has a value *)
Definition valued (sc : scope) (pos : option address) : Prop := forall x r, variable_node sc pos x = Some r -> exists v, r = Ok v.
Lemma valued_at sc a : valued sc (Some a).
Proof.
  intros x r. unfold variable_node. destruct (assoc x (variables sc)) as [n|]; [|discriminate]. intro H. assert (K : forall v, exists w, into_ast v (Some a) = Ok w) by (intro v; destruct v; cbn [into_ast]; eauto; destruct (fill_contains _ _); eauto).
  destruct n; injection H as <-; eauto.
Qed.
Lemma plain_valued sc pos : plain_scope sc pos -> valued sc pos.
Proof. intros [A _] x r H. destruct (A x r H) as [v [-> _]]. eauto. Qed.
Lemma call_function_no_panic f fn : forall n, call_function f fn n <> Panic.
Proof.
  apply (node_induction (fun n => call_function f fn n <> Panic)); try (intros; discriminate).
  - intros a n H. cbn [call_function]. destruct (str_eqb n f); [destruct fn; try discriminate; destruct (_ =? _); discriminate|].
    match goal with |- context [bind (?g a) _] => assert (K : g a <> Panic) end; [|match goal with |- bind ?x _ <> _ => destruct x; cbn [bind]; np end].
    induction H as [|x l Hx Hl IH]; [discriminate|]. destruct (call_function f fn x); cbn [bind]; try np. match goal with |- context [bind (?g l) _] => destruct (g l); cbn [bind]; np end.
  - intros l o r Hl Hr. cbn [call_function]. destruct (call_function f fn l); cbn [bind]; try np. destruct (call_function f fn r); cbn [bind]; np.
  - intros x v H. destruct v; try discriminate. cbn [call_function]. specialize (H n eq_refl). cbn in H. destruct (call_function f fn n); cbn [bind]; np.
Qed.
Lemma eval_round_no_panic sc pos vs fs n : valued sc pos -> eval_round sc pos vs fs n <> Panic.
Proof.
  intro V. unfold eval_round. assert (R : resolve_variables sc pos vs <> Panic).
  { induction vs as [|x vs IH]; cbn [resolve_variables]; [discriminate|]. destruct (variable_node sc pos x) as [r|] eqn:E; [|exact IH]. destruct (V _ _ E) as [v ->]. cbn [bind]. destruct (resolve_variables sc pos vs) as [m| | |]; cbn [bind]; [discriminate|discriminate|contradiction|discriminate]. }
  destruct (resolve_variables sc pos vs) as [m| | |]; cbn [bind]; try np. generalize (eval_variables m n). clear n R.
  induction fs as [|f fs IH]; intro n; cbn [eval_functions]; [discriminate|]. destruct (assoc f (functions sc)) as [fn|]; [|apply IH]. pose proof (call_function_no_panic f fn n) as C. destruct (call_function f fn n); cbn [bind]; [apply IH|discriminate|contradiction|discriminate].
Qed.
Lemma ast_eval_no_panic fuel ord sc pos n : valued sc pos -> ast_eval fuel ord sc pos n <> Panic.
Proof.
  intro V. unfold ast_eval. generalize no_references. generalize 0. revert n. induction fuel as [|fuel IH]; intros n k last; cbn [eval_loop]; [discriminate|].
  destruct (_ || _); [discriminate|]. pose proof (eval_round_no_panic sc pos (ord (2 * k) (ref_variables (extract_references sc n))) (ord (2 * k + 1) (ref_functions (extract_references sc n))) n V) as R.
  cbv zeta. destruct (eval_round _ _ _ _ _); cbn [bind]; try np. apply IH.
Qed.
Lemma main_eval_no_panic ev sched p kv : main_eval ev sched p kv <> Panic.
Proof.
  unfold main_eval, module_eval_fills. destruct (eval_fills (pr_sheet p)) as [s|]; cbn [bind]; [|discriminate]. unfold eval_spreadsheet. match goal with |- bind ?x _ <> _ => assert (K : x <> Panic) end; [|match goal with |- bind ?x _ <> _ => destruct x; cbn [bind]; np end].
  set (sc := sheet_scope _ kv). assert (R : forall y r, row_eval ev sc y r <> Panic).
  { intros y r. unfold row_eval. assert (C : forall cs x, eval_cells ev sc y x cs <> Panic).
    { induction cs as [|c cs IH]; intro x; cbn [eval_cells]; [discriminate|]. cbv zeta. destruct (cell_ast c) as [n|].
      - pose proof (ast_eval_no_panic (ev_fuel ev) (ev_order ev {| addr_x := x; addr_y := y |}) sc (Some {| addr_x := x; addr_y := y |}) n (valued_at _ _)) as A. destruct (ast_eval _ _ _ _ n); cbn [bind]; try np.
        specialize (IH (S x)). destruct (eval_cells ev sc y (S x) cs); cbn [bind]; np.
      - cbn [bind]. specialize (IH (S x)). destruct (eval_cells ev sc y (S x) cs); cbn [bind]; np. }
    specialize (C (row_cells r) 0). destruct (eval_cells ev sc y 0 (row_cells r)); cbn [bind]; np. }
  assert (A : forall x, In x (mapi (row_eval ev sc) 0 (sheet_rows s)) -> x <> Panic).
  { generalize 0. induction (sheet_rows s) as [|r rs IH]; intros k x; cbn [mapi]; [intros []|]. intros [<-|I]; [apply R|]. eapply IH; exact I. }
  cbn [pr_sheet]. unfold par_collect. destruct (first_failure _ sched) as [x|] eqn:Ff.
  - assert (Q : In x (mapi (row_eval ev sc) 0 (sheet_rows s)) /\ is_ok x = false).
    { revert Ff. induction sched as [|i sched IH]; cbn [first_failure]; [discriminate|]. destruct (nth_error _ i) as [z|] eqn:Nz; [|exact IH]. destruct (is_ok z) eqn:Oz; [exact IH|]. intros [= <-]. split; [eapply nth_error_In; exact Nz|exact Oz]. }
    destruct Q as [Q1 Q2]. specialize (A _ Q1). unfold fail_as. destruct x; try discriminate; congruence.
  - revert A. clear. induction (mapi _ 0 _) as [|x l IH]; intro A; cbn [collect]; [discriminate|]. pose proof (A x (or_introl eq_refl)) as X. destruct x; cbn [bind]; try np.
    assert (K : collect l <> Panic) by (apply IH; intros z I; apply A; right; exact I). destruct (collect l); cbn [bind]; np.
Qed.

(** ** Definitions stay definitions *)
Section Defs.
  Context (sc : scope) (D : plain_defs sc).
  Lemma keeps (P : node -> Prop) fuel ord pos : (forall x v n, plain v -> P n -> P (replace_variable x v n)) ->
    (forall f ps b nm n n', plain b -> P n -> call_function f (NFn ps b nm) n = Ok n' -> P n') ->
    forall n n', P n -> ast_eval fuel ord sc pos n = Ok n' -> P n'.
  Proof.
    intros Hv Hf. pose proof (plain_defs_scope sc pos D) as [Pv Pf]. unfold ast_eval. generalize no_references. generalize 0. induction fuel as [|fuel IH]; intros k last n n' Pn H; cbn [eval_loop] in H; [discriminate|]. cbv zeta in H.
    destruct (_ || _); [injection H as <-; exact Pn|]. apply bind_ok in H as [n1 [H1 H]]. refine (IH _ _ _ _ _ H). clear H IH. unfold eval_round in H1. apply bind_ok in H1 as [m [Hm H1]].
    assert (Pm : forall x v, In (x, v) m -> plain v).
    { clear H1. revert m Hm. generalize (ord (2 * k) (ref_variables (extract_references sc n))). intro vs. induction vs as [|x vs IH]; intros m Hm; cbn [resolve_variables] in Hm; [injection Hm as <-; intros ? ? []|].
      destruct (variable_node sc pos x) as [r|] eqn:E; [|apply IH; exact Hm]. destruct (Pv _ _ E) as [v [-> V]]. apply bind_ok in Hm as [m' [Hm E']]. injection E' as <-. intros y w [I|I]; [injection I as <- <-; exact V|]. eapply IH; eassumption. }
    assert (P1 : P (eval_variables m n)).
    { clear H1 Hm. revert n Pn. induction m as [|[x v] m IH]; intros n Pn; cbn [eval_variables]; [exact Pn|]. apply IH; [intros y w I; apply (Pm y w); right; exact I|]. apply Hv; [apply (Pm x v); left; reflexivity|exact Pn]. }
    clear Hm. revert P1 H1. generalize (eval_variables m n). generalize (ord (2 * k + 1) (ref_functions (extract_references sc n))). intro fs. induction fs as [|f fs IH]; intros z Pz H1; cbn [eval_functions] in H1; [injection H1 as <-; exact Pz|].
    destruct (assoc f (functions sc)) as [fn|] eqn:A; [|eapply IH; eassumption]. destruct (Pf _ _ A) as (ps & b & nm & -> & Pb). apply bind_ok in H1 as [z' [Hz H1]]. refine (IH _ _ H1). eapply Hf; eassumption.
  Qed.
  Lemma keeps_value fuel ord x v n' : plain v -> ast_eval fuel ord sc None (NVar x (VAst v)) = Ok n' -> exists v', n' = NVar x (VAst v') /\ plain v'.
  Proof.
    intros Pv H. refine (keeps (fun n => exists v', n = NVar x (VAst v') /\ plain v') _ _ _ _ _ _ _ _ H); [| |eauto].
    - intros y w n W (v1 & -> & P1). cbn [replace_variable]. eexists. split; [reflexivity|]. apply plain_replace; assumption.
    - intros f ps b nm n n1 Pb (v1 & -> & P1) C. cbn [call_function] in C. apply bind_ok in C as [v2 [C1 C2]]. injection C2 as <-. eexists. split; [reflexivity|]. exact (plain_called _ _ _ _ Pb _ _ P1 C1).
  Qed.
  Lemma keeps_function fuel ord ps b nm n' : plain b -> ast_eval fuel ord sc None (NFn ps b nm) = Ok n' -> exists ps' b' nm', n' = NFn ps' b' nm' /\ plain b'.
  Proof.
    intros Pb H. refine (keeps (fun n => exists ps' b' nm', n = NFn ps' b' nm' /\ plain b') _ _ _ _ _ _ _ _ H); [| |eauto 6].
    - intros y w n W (ps1 & b1 & nm1 & -> & P1). cbn [replace_variable]. do 3 eexists. split; [reflexivity|]. apply plain_replace; assumption.
    - intros f ps1 b1 nm1 n n1 _ (ps2 & b2 & nm2 & -> & P2) C. injection C as <-. eauto 6.
  Qed.
End Defs.
Lemma definitions_kept fuel ord vars : forall ks orig sc, plain_defs sc ->
  (forall k n, assoc k orig = Some n -> if vars : bool then exists x v, n = NVar x (VAst v) /\ plain v else exists ps b nm, n = NFn ps b nm /\ plain b) ->
  eval_definitions fuel ord vars ks orig sc <> Panic /\ forall sc', eval_definitions fuel ord vars ks orig sc = Ok sc' -> plain_defs sc'.
Proof.
  induction ks as [|k ks IH]; intros orig sc D O; cbn [eval_definitions]; [split; [discriminate|]; intros sc' [= <-]; exact D|]. destruct (assoc k orig) as [n|] eqn:A; [|apply IH; assumption].
  pose proof (ast_eval_no_panic fuel (ord k) sc None n (plain_valued _ _ (plain_defs_scope sc None D))) as Np. destruct (ast_eval fuel (ord k) sc None n) as [n'| | |] eqn:Ev; cbn [bind]; try (split; [np|discriminate]).
  apply IH; [|exact O]. specialize (O _ _ A). destruct D as [Df Dv]. destruct vars.
  - destruct O as (x & v & -> & Pv). destruct (keeps_value sc (conj Df Dv) _ _ _ _ _ Pv Ev) as (v' & -> & Pv'). split; [exact Df|]. cbn [variables]. intros y g H. destruct (str_eqb_spec y k) as [->|Ne]; [rewrite assoc_insert_same in H; injection H as <-; eauto 6|rewrite assoc_insert_other in H by congruence; eapply Dv; exact H].
  - destruct O as (ps & b & nm & -> & Pb). destruct (keeps_function sc (conj Df Dv) _ _ _ _ _ _ Pb Ev) as (ps' & b' & nm' & -> & Pb'). split; [|exact Dv]. cbn [functions]. intros y g H. destruct (str_eqb_spec y k) as [->|Ne]; [rewrite assoc_insert_same in H; injection H as <-; eauto 6|rewrite assoc_insert_other in H by congruence; eapply Df; exact H].
Qed.

(** ** Merging and evaluating definitions *)
Lemma merge_plain sc other : plain_defs sc -> plain_defs other -> plain_defs (scope_merge sc other).
Proof.
  intros [F V] [F' V']. split.
  - intros x g E. destruct (scope_merge_spec other (exports other) sc x) as [_ [A _]]. unfold scope_merge in E. rewrite A in E. destruct (assoc x (functions sc)) as [h|] eqn:Ex; [injection E as <-; eapply F, Ex|].
    destruct (str_in x (exports other)); [eapply F', E|discriminate].
  - intros x g E. destruct (scope_merge_spec other (exports other) sc x) as [A _]. unfold scope_merge in E. rewrite A in E. destruct (assoc x (variables sc)) as [h|] eqn:Ex; [injection E as <-; eapply V, Ex|].
    destruct (str_in x (exports other)); [eapply V', E|discriminate].
Qed.
Lemma merge_scopes_plain scopes : (forall p d, passoc p scopes = Some d -> plain_defs d) -> forall req sc sc', plain_defs sc -> merge_scopes scopes req sc = Some sc' -> plain_defs sc'.
Proof.
  intros H. induction req as [|q req IH]; intros sc sc' D M; cbn [merge_scopes] in M; [injection M as <-; exact D|]. destruct (passoc q scopes) as [d|] eqn:P; [|discriminate]. eapply IH; [|exact M]. apply merge_plain; [exact D|]. eapply H, P.
Qed.
Lemma merge_scopes_none scopes : forall req sc, merge_scopes scopes req sc = None -> exists q, In q req /\ passoc q scopes = None.
Proof.
  induction req as [|q req IH]; intros sc M; cbn [merge_scopes] in M; [discriminate|]. destruct (passoc q scopes) as [d|] eqn:P; [|exists q; split; [left; reflexivity|exact P]]. destruct (IH _ M) as [x [I J]]. exists x. split; [right; exact I|exact J].
Qed.
Lemma scope_kept E p sc : plain_defs sc -> eval_scope E p sc <> Panic /\ forall sc', eval_scope E p sc = Ok sc' -> plain_defs sc'.
Proof.
  intro D. unfold eval_scope. destruct (definitions_kept (e_fuel E) (e_order E p) true (e_keys E p (map fst (variables sc))) (variables sc) sc D (proj2 D)) as [A B].
  destruct (eval_definitions _ _ true _ _ _) as [s1| | |]; cbn [bind]; try (split; [np|discriminate]). specialize (B _ eq_refl). apply (definitions_kept (e_fuel E) (e_order E p) false _ (functions s1) s1 B (proj1 B)).
Qed.

(** ** The directory *)
Definition placed (programs : file -> Prop) (F : fs) : Prop := forall f m t, objects F f = Some (ODecoded m, t) -> m_file m = f /\ (~ programs f -> plain_defs (m_scope m)).
Lemma placed_in P F : placed P F -> objects_in_place F.
Proof. intros H f m t K. exact (proj1 (H _ _ _ K)). Qed.
Lemma placed_write P E F m G : placed P F -> (~ P (m_file m) -> plain_defs (m_scope m)) -> write_object E F m = Some G -> placed P G.
Proof.
  intros H K. unfold write_object. destruct (e_writable E (m_file m)); [|discriminate]. intros [= <-] f m' t. cbn [objects]. destruct (path_eqb_spec f (m_file m)) as [->|_]; [|apply H]. intros [= <- <-]. auto.
Qed.
Lemma source_plain E F p f m : load_from_source E F p f = Ok m -> plain_defs (m_scope m).
Proof.
  unfold load_from_source. destruct (sources F f) as [[text t]|]; [|discriminate]. destruct (load_source (e_co E) text) as [pr| | |] eqn:L; try discriminate. intros [= <-]. exact (proj1 (load_plain _ _ _ L)).
Qed.
Lemma loaded_plain P E F uc p r m : placed P F -> ~ P (filename_relative_to p r) -> load_one E F uc p r = Ok m -> plain_defs (m_scope m).
Proof.
  intros O N H. unfold load_one in H. destruct uc; [|eapply source_plain; exact H]. unfold load_from_cache, load_from_object in H.
  destruct (objects F (filename_relative_to p r)) as [[[m0|] t]|] eqn:Ob; [|eapply source_plain; exact H..]. destruct (O _ _ _ Ob) as [Fm Pl]. specialize (Pl N). revert H.
  unfold check_if_is_dirty. destruct (objects F (m_file m0)) as [[o t0]|]; [|discriminate]. destruct (sources F (m_file m0)) as [[x t']|]; [|discriminate]. destruct (t0 <? t'); intros [= <-]; exact Pl.
Qed.
Lemma source_panics E F p f : load_from_source E F p f = Panic -> exists text t, sources F f = Some (text, t) /\ load_source (e_co E) text = Panic.
Proof. unfold load_from_source. destruct (sources F f) as [[text t]|]; [|discriminate]. destruct (load_source (e_co E) text) eqn:L; try discriminate. eauto. Qed.
Lemma load_panics E F uc p r : load_one E F uc p r = Panic -> exists text t, sources F (filename_relative_to p r) = Some (text, t) /\ load_source (e_co E) text = Panic.
Proof.
  unfold load_one, load_from_cache. destruct uc; [|intro H; apply source_panics in H; eauto]. destruct (load_from_object F _) as [m0|]; [intro H; destruct (dirty_check_ends E F m0) as [_ N]; contradiction|intro H; apply source_panics in H; eauto].
Qed.
Lemma main_panics E F p f : load_from_cache_from_filename E F p f = Panic -> exists text t, sources F f = Some (text, t) /\ load_source (e_co E) text = Panic.
Proof.
  unfold load_from_cache_from_filename. destruct (load_from_object F f) as [m0|]; [|intro H; apply source_panics in H; eauto]. destruct (dirty_check_ends E F m0) as [_ N]. destruct (check_if_is_dirty E F m0) as [m1| | |]; cbn [bind]; [|discriminate|contradiction|discriminate].
  destruct (m_dirty m1); [intro H; apply source_panics in H; eauto|discriminate].
Qed.
Lemma load_one_ends E F uc p r : load_one E F uc p r <> NoFuel.
Proof.
  assert (A : forall f, load_from_source E F p f <> NoFuel).
  { intro f. unfold load_from_source. destruct (sources F f) as [[text t]|]; [|discriminate]. pose proof (load_source_ends (e_co E) text) as L. destruct (load_source (e_co E) text); try discriminate. contradiction. }
  unfold load_one, load_from_cache. destruct uc; [|apply A]. destruct (load_from_object F _) as [m0|]; [apply (dirty_check_ends E F m0)|apply A].
Qed.

(** ** The threads *)
Section Threads.
  Variable load_one : module_path -> module_path -> outcome load_failure module.
  Variable main : module.
  Definition broken : Prop := exists p r, reachable load_one main p r /\ (load_one p r = Panic \/ load_one p r = NoFuel).
  Lemma panic_step sh t sh' t' : step load_one (sh, t) (sh', t') -> sourced load_one main t -> (LoaderProofs.panics t = true -> broken) -> LoaderProofs.panics t' = true -> broken.
  Proof.
    intro H. remember (sh, t) as c eqn:Ec. remember (sh', t') as c' eqn:Ec'. revert sh t sh' t' Ec Ec'.
    induction H as [sh p r|sh p e|sh slot m new|sh sh1 slot m a k k' b H IH|sh slot m kids Fk P|sh slot m kids Fk P];
      intros sh0 t0 sh0' t0' E1 E2 So Hs Hp; inversion E1; inversion E2; subst; clear E1 E2; try discriminate Hp.
    - inversion So; subst. exists p, r. split; [assumption|]. destruct (load_one p r); try discriminate Hp; auto.
    - exfalso. cbn [LoaderProofs.panics] in Hp. revert Hp. generalize new. clear. intro l. induction l as [|x l IHl]; [discriminate|exact IHl].
    - cbn [LoaderProofs.panics] in *. rewrite existsb_app in *. cbn [existsb] in *. destruct (existsb LoaderProofs.panics a) eqn:Ha; [apply Hs; reflexivity|].
      destruct (existsb LoaderProofs.panics b) eqn:Hb; [apply Hs; rewrite !orb_true_r; reflexivity|]. rewrite orb_false_r in Hp. cbn [orb] in Hp. apply (IH _ _ _ _ eq_refl eq_refl); [inversion So; subst; match goal with X : Forall _ _ |- _ => apply Forall_app in X as [_ X]; inversion X; subst; assumption end| |exact Hp]. intro Q. apply Hs. rewrite Q. reflexivity.
    - apply Hs. destruct (finished_lists _ Fk) as [_ [_ B]]. cbn [LoaderProofs.panics]. rewrite <- P. exact B.
  Qed.
  Lemma run_broken sh t : load_run load_one main sh t -> t = TDone \/ broken.
  Proof.
    intros [R Fi]. assert (X : LoaderProofs.panics t = true -> broken).
    { assert (Y : (sourced load_one main t /\ maps_sourced load_one main sh) /\ (LoaderProofs.panics t = true -> broken)); [|apply Y].
      refine (steps_ind2 load_one (fun sh t => (sourced load_one main t /\ maps_sourced load_one main sh) /\ (LoaderProofs.panics t = true -> broken)) _ _ _ _ _ R _).
      - intros sh0 t0 sh1 t1 St [I1 I2]. split; [eapply sourced_step; eauto|exact (panic_step _ _ _ _ St (proj1 I1) I2)].
      - split; [|discriminate]. split; [constructor; reflexivity|]. split; intros ? ? []. }
    destruct t; try discriminate Fi; [left; reflexivity|right; apply X; reflexivity].
  Qed.
End Threads.

(** ** Compiling *)
Definition safe_modules (P : file -> Prop) (ld : list (module_path * module)) : Prop := forall p m, passoc p ld = Some m -> plain_defs (m_scope m) /\ ~ P (m_file m).
Lemma in_order_safe P E uc : forall order ld scopes F r G, placed P F -> safe_modules P ld -> (forall p d, passoc p scopes = Some d -> plain_defs d) ->
  eval_in_order E uc order ld scopes F = (r, G) ->
  placed P G /\ (forall ld', r = Ok ld' -> forall p, passoc p ld <> None -> passoc p ld' <> None)
  /\ (r = Panic -> exists p m q, passoc p ld = Some m /\ In q (m_requires m) /\ passoc q scopes = None).
Proof.
  induction order as [|p order IH]; intros ld scopes F r G O Sm Sc H; cbn [eval_in_order] in H; [apply pair_equal_spec in H as [<- <-]; split; [exact O|]; split; [intros ld' [= <-]; auto|discriminate]|].
  destruct (passoc p ld) as [m|] eqn:L; [|exact (IH _ _ _ _ _ O Sm Sc H)]. destruct (m_needs_eval m); cbn [negb] in H; [|exact (IH _ _ _ _ _ O Sm Sc H)]. destruct (Sm _ _ L) as [Dm Nm].
  destruct (merge_scopes scopes (rev (m_requires m)) (m_scope m)) as [sc|] eqn:M.
  2:{ apply pair_equal_spec in H as [<- <-]. split; [exact O|]. split; [discriminate|]. intros _. destruct (merge_scopes_none _ _ _ M) as [q [I N]]. exists p, m, q. split; [exact L|]. split; [apply in_rev, I|exact N]. }
  pose proof (merge_scopes_plain _ Sc _ _ _ Dm M) as Ds. destruct (scope_kept E p sc Ds) as [Np Kp]. destruct (eval_scope E p sc) as [sc1|e| |]; [|apply pair_equal_spec in H as [<- <-]; split; [exact O|split; discriminate]|contradiction|apply pair_equal_spec in H as [<- <-]; split; [exact O|split; discriminate]].
  specialize (Kp _ eq_refl). cbv zeta in H.
  assert (Step : forall F1, placed P F1 -> eval_in_order E uc order (pinsert p (with_scope m sc1) ld) (pinsert (m_path m) sc1 scopes) F1 = (r, G) ->
    placed P G /\ (forall ld', r = Ok ld' -> forall p, passoc p ld <> None -> passoc p ld' <> None)
    /\ (r = Panic -> exists p m q, passoc p ld = Some m /\ In q (m_requires m) /\ passoc q scopes = None)).
  { intros F1 O1 H1. edestruct (fun a b => IH _ _ _ _ _ O1 a b H1) as [A [B C]].
    - intros q m' Q. destruct (LoaderProofs.path_eqb_spec q p) as [->|Ne]; [rewrite passoc_insert_same in Q; injection Q as <-; split; [exact Kp|exact Nm]|rewrite passoc_insert_other in Q by exact Ne; exact (Sm _ _ Q)].
    - intros q d Q. destruct (LoaderProofs.path_eqb_spec q (m_path m)) as [->|Ne]; [rewrite passoc_insert_same in Q; injection Q as <-; exact Kp|rewrite passoc_insert_other in Q by exact Ne; exact (Sc _ _ Q)].
    - split; [exact A|]. split.
      + intros ld' R q Q. refine (B _ R q _). destruct (LoaderProofs.path_eqb_spec q p) as [->|Ne]; [rewrite passoc_insert_same; discriminate|rewrite passoc_insert_other by exact Ne; exact Q].
      + intro R. destruct (C R) as (q & m' & x & Q1 & Q2 & Q3).
        assert (X : passoc x scopes = None) by (destruct (LoaderProofs.path_eqb_spec x (m_path m)) as [->|Ne]; [rewrite passoc_insert_same in Q3; discriminate|rewrite passoc_insert_other in Q3 by exact Ne; exact Q3]).
        destruct (LoaderProofs.path_eqb_spec q p) as [->|Ne]; [rewrite passoc_insert_same in Q1; injection Q1 as <-; exists p, m, x; auto|rewrite passoc_insert_other in Q1 by exact Ne; exists q, m', x; auto]. }
  destruct uc; [|eapply Step; eassumption]. destruct (write_object E F (with_scope m sc1)) as [F1|] eqn:W; [|apply pair_equal_spec in H as [<- <-]; split; [exact O|split; discriminate]].
  eapply Step; [|exact H]. eapply placed_write; [exact O| |exact W]. intros _. exact Kp.
Qed.
Lemma scopes_of (ld : list (module_path * module)) p : passoc p (map (fun pm => (fst pm, m_scope (snd pm))) ld) = option_map m_scope (passoc p ld).
Proof. induction ld as [|[q m] ld IH]; cbn [map passoc fst snd]; [reflexivity|]. destruct (path_eqb p q); [reflexivity|exact IH]. Qed.
Section Run.
  Context (P : file -> Prop) (E : env) (uc : bool) (F : fs) (name : str) (O : placed P F) (Pn : P [name]) (Im : imports_no_program P E uc F name).
  Context (main : module) (Lm : load_from_cache_from_filename E F [name] [name] = Ok main).
  Lemma loaded_safe sh : load_run (load_one E F uc) main sh TDone -> safe_modules P (loaded sh) /\ forall p d, passoc p (map (fun pm => (fst pm, m_scope (snd pm))) (loaded sh)) = Some d -> plain_defs d.
  Proof.
    intro R. assert (A : safe_modules P (loaded sh)).
    { intros p m L. destruct (run_loaded _ _ _ _ R p m (passoc_In _ _ _ L)) as [r [Re Lo]]. pose proof (Im _ _ _ Lm Re) as N. split; [eapply loaded_plain; eassumption|]. rewrite (loaded_file _ _ _ _ _ _ (placed_in _ _ O) Lo). exact N. }
    split; [exact A|]. intros p d. rewrite scopes_of. destruct (passoc p (loaded sh)) as [m|] eqn:L; [|discriminate]. intros [= <-]. apply (A _ _ L).
  Qed.
  Lemma killed_placed sh order r G : load_run (load_one E F uc) main sh TDone -> eval_dependencies E uc order (loaded sh) F = (r, G) -> placed P G.
  Proof. intros R H. destruct (loaded_safe sh R) as [A B]. exact (proj1 (in_order_safe P E uc _ _ _ _ _ _ O A B H)). Qed.
  Lemma same_paths (a b : module_path) : {a = b} + {a <> b}.
  Proof. apply list_eq_dec, list_eq_dec, N.eq_dec. Defined.
  Lemma compiled_placed kv sh t order r G : load_run (load_one E F uc) main sh t -> compile_with E uc kv main sh t order F = (r, G) ->
    placed P G /\ (r = Panic -> crash_cause E uc F name).
  Proof.
    intros R H. pose proof R as [_ Fi]. destruct t; try discriminate Fi; clear Fi.
    - destruct (loaded_safe sh R) as [A B]. unfold compile_with in H. cbn [panicked] in H. unfold load_main in H. destruct (any_dirty main (loaded sh)); [apply pair_equal_spec in H as [<- <-]; split; [exact O|discriminate]|].
      destruct (eval_dependencies E uc order (loaded sh) F) as [r1 F1] eqn:Ed. unfold eval_dependencies in Ed. destruct (in_order_safe P E uc _ _ _ _ _ _ O A B Ed) as [O1 [Kp Pa]].
      assert (Rec : forall p, In p (m_requires main) \/ (exists q m, passoc q (loaded sh) = Some m /\ In p (m_requires m)) -> passoc p (loaded sh) <> None \/ exists e r', passoc p (failed sh) = Some e /\ reachable (load_one E F uc) main p r' /\ load_one E F uc p r' = Err e).
      { intros p Hp. destruct (load_done _ _ _ R) as [_ [N [Cm Cl]]]. destruct R as [Rs _]. destruct (sourced_run _ _ _ _ Rs) as [_ [_ Sf]].
        assert (K : In p (known sh)) by (destruct Hp as [Hp|[q [m [L Hp]]]]; [apply Cm, Hp|exact (Cl q m L p Hp)]).
        destruct (known_cases sh p N K) as [[m [L1 _]]|[e [L1 _]]]; [left; congruence|right]. destruct (Sf _ _ (passoc_In _ _ _ L1)) as [r' [X Y]]. exists e, r'. auto. }
      assert (Wrong : forall p m q, passoc p (loaded sh) = Some m -> In q (m_requires m) -> passoc q (loaded sh) = None -> crash_cause E uc F name).
      { intros p m q L I N. destruct (run_loaded _ _ _ _ R p m (passoc_In _ _ _ L)) as [r0 [Re Lo]]. destruct (Rec q) as [X|(e & r' & _ & X & Y)]; [right; eauto|destruct (X N)|]. exact (cc_indirect E uc F name main q r0 p r' m e Lm Re Lo I X Y). }
      destruct r1 as [ld|e| |]; [|apply pair_equal_spec in H as [<- <-]; split; [exact O1|discriminate]| |apply pair_equal_spec in H as [<- <-]; split; [exact O1|discriminate]].
      2:{ apply pair_equal_spec in H as [<- <-]. split; [exact O1|]. intros _. destruct (Pa eq_refl) as (p & m & q & L & I & N). rewrite scopes_of in N. destruct (passoc q (loaded sh)) eqn:Nq; [discriminate|]. eapply Wrong; eassumption. }
      unfold merge_direct_dependencies in H. destruct (failed sh) as [|x l] eqn:Fl; [|apply pair_equal_spec in H as [<- <-]; split; [exact O1|discriminate]].
      destruct (merge_required (m_requires main) ld (m_scope main)) as [sc|] eqn:Mr.
      2:{ apply pair_equal_spec in H as [<- <-]. split; [exact O1|]. intros _. destruct (ListDec.NoDup_dec same_paths (m_requires main)) as [Nd|Nd]; [|eapply cc_twice; eassumption].
          exfalso. destruct (HistoryProofs.merge_required_known (m_requires main) ld (m_scope main) Nd) as [sc Y]; [|congruence]. intros q I. apply (Kp _ eq_refl). destruct (Rec q) as [X|(e & r' & X & _)]; [left; exact I|exact X|discriminate]. }
      unfold finish in H. cbn [with_flags m_needs_eval with_scope] in H. change (m_needs_eval (with_scope main sc)) with (m_needs_eval main) in H. destruct (m_needs_eval main); [|apply pair_equal_spec in H as [<- <-]; split; [exact O1|discriminate]].
      match type of H with context [main_eval ?a ?b ?c ?d] => pose proof (main_eval_no_panic a b c d) as Me; destruct (main_eval a b c d) as [p'| | |] end; [|apply pair_equal_spec in H as [<- <-]; split; [exact O1|discriminate]|contradiction|apply pair_equal_spec in H as [<- <-]; split; [exact O1|discriminate]].
      destruct uc; [|apply pair_equal_spec in H as [<- <-]; split; [exact O1|discriminate]].
      match type of H with context [write_object E F1 ?m] => destruct (write_object E F1 m) as [G1|] eqn:W end; [|apply pair_equal_spec in H as [<- <-]; split; [exact O1|discriminate]].
      apply pair_equal_spec in H as [<- <-]. split; [|discriminate]. eapply placed_write; [exact O1| |exact W]. cbn [m_file with_flags with_program with_scope]. rewrite (main_file _ _ _ _ (placed_in _ _ O) Lm). contradiction.
    - unfold compile_with in H. cbn [panicked] in H. apply pair_equal_spec in H as [<- <-]. split; [exact O|]. intros _. destruct (run_broken _ _ _ _ R) as [Q|(p & q & Re & [Br|Br])]; [discriminate Q| |destruct (load_one_ends _ _ _ _ _ Br)].
      destruct (load_panics _ _ _ _ _ Br) as (text & t0 & S1 & S2). exact (cc_import E uc F name main p q text t0 Lm Re S1 S2).
  Qed.
End Run.

Lemma worked_placed P F : worked_in P F -> placed P F.
Proof.
  induction 1 as [F N|E uc kv name F r F' _ O Pn Im C|E name main sh order rest F r F' _ O Pn Im Lm R _ Ed|F f s _ O|F f o _ O N].
  - intros f m t H. rewrite N in H. discriminate.
  - inversion C as [main sh t order Lm R _ Q|e Lm Q|Lm Q]; subst; [|exact O|exact O]. eapply compiled_placed; [exact O|exact Pn|exact Im|exact Lm|exact R|exact Q].
  - eapply killed_placed; eassumption.
  - intros g m t H. apply (O g m t). exact H.
  - intros g m t H. unfold with_object in H. cbn [objects] in H. destruct (path_eqb g f); [destruct (N _ _ H)|exact (O _ _ _ H)].
Qed.
(** In a directory in which the files that are compiled on their own are never imported, a program crashes only for one of the listed causes, whatever was compiled before,
    whichever files were edited, whatever object files were lost or damaged, and however the threads run. *)
Theorem C96_causes programs F E use_cache key_values name r G : worked_in programs F -> programs [name] -> imports_no_program programs E use_cache F name ->
  compiles E use_cache key_values name F (r, G) -> r = Panic -> crash_cause E use_cache F name.
Proof.
  intros W Pn Im C Rp. pose proof (worked_placed _ _ W) as O. inversion C as [main sh t order Lm R _ Q|e Lm Q|Lm Q]; subst; [|discriminate|].
  - eapply compiled_placed; [exact O|exact Pn|exact Im|exact Lm|exact R|exact Q|reflexivity].
  - destruct (main_panics _ _ _ _ Lm) as (text & t & S1 & S2). exact (cc_main _ _ _ _ text t S1 S2).
Qed.
Print Assumptions C96_causes.

Lemma csv_not_crashed rd cr wr now bk ow p m F : fst (main_program rd cr wr now bk ow p (Ok m) F) <> Crashed.
Proof.
  unfold main_program. assert (X : forall G, fst (write_csv rd wr ow p (pr_sheet (m_program m)) G) <> Crashed) by (intro G; unfold write_csv; destruct (match G p with Some _ => _ | None => _ end); [destruct wr|]; discriminate).
  destruct bk; [|apply X]. unfold backup_file, backup_path. destruct (file_stem p); [|discriminate]. destruct (extension p); [|discriminate]. destruct (first_unused _ _); [|discriminate].
  unfold copy_file. destruct (F p); [|discriminate]. destruct (cr _); [apply X|discriminate].
Qed.
(** The whole program, writing CSV: a run ends in a panic only because of a -k argument (C48 says which) or of one of these causes. *)
Theorem C96_run programs w a p S F S' F' name : csv_output a p -> main_name a = Some name ->
  worked_in programs S -> programs [name] -> imports_no_program programs (w_env w) (negb (a_no_cache a)) S name ->
  runs w a S F EndsInPanic S' F' ->
  (exists before kv after k v, a_key_values a = before ++ kv :: after /\ Forall (readable (oracle_of w)) before /\ key_and_value kv k v /\ panics_on (o_unicode (oracle_of w)) v)
  \/ crash_cause (w_env w) (negb (a_no_cache a)) S name.
Proof.
  intros Hp Hn W Pn Im H. inversion H as [|Cf| | |c o nm r S1 Cf Co Nm C Q1 Q2 Q3]; subst.
  - left. apply C48_key_values_exactly. unfold config_of in Cf. unfold oracle_of. destruct (parse_key_values _ _ []) as [kv| | |]; try discriminate Cf; [|reflexivity]. exfalso.
    unfold config_try_from in Cf. destruct (sheet_name a) as [sn| | |] eqn:Sn; cbn [bind] in Cf; try discriminate Cf.
    + destruct (u8_into_level_filter (a_verbose a)) as [lv| | |] eqn:Lv; cbn [bind] in Cf; try discriminate Cf. unfold u8_into_level_filter in Lv. repeat match type of Lv with context [match ?x with _ => _ end] => destruct x; try discriminate Lv end.
    + unfold sheet_name in Sn. repeat match type of Sn with context [match ?x with _ => _ end] => destruct x end; discriminate Sn.
  - right. unfold main_name in Hn. rewrite Nm in Hn. cbn [option_map] in Hn. assert (E : fst (stem_and_extension nm) = name) by congruence. rewrite E in C. destruct (config_fields _ _ _ Cf) as (_ & _ & _ & _ & _ & U). rewrite U in C.
    rewrite (csv_chosen _ _ _ Hp) in Co. injection Co as <-. destruct r as [m|e| |]; try discriminate Q1.
    + exfalso. rewrite deliver_csv in Q1. pose proof (csv_not_crashed (w_read w) (w_creatable w) (w_writable w p) (w_now w) (c_backup c) (c_overwrite_values c) p m F) as N.
      destruct (main_program _ _ _ _ _ _ _ _ _) as [x G]. destruct x; try discriminate Q1. apply N. reflexivity.
    + eapply C96_causes; [exact W|exact Pn|exact Im|exact C|reflexivity].
Qed.
Print Assumptions C96_run.

(** ** Examples *)
(** A program that was compiled on its own, and is edited and then imported: the cell variables in its object code have no value outside of its sheet. *)
Definition ex_report_text (last : string) : str := lit ("x := total" ++ nl ++ "---" ++ nl ++ "![[fill=2]][[var=total]]" ++ last ++ ",end")%string.
Definition ex_user_text : str := lit ("use report" ++ nl ++ "---" ++ nl ++ "=x,end")%string.
Definition ex_report : fs := {| sources := fun f => if path_eqb f [lit "report"] then Some (ex_report_text "5", 1) else None; objects := fun _ => None |}.
Definition ex_fresh : fs := files_after (ex_run (ex_E 5) true [] "report" ex_report false [["report"]]%string) ex_report.
Definition with_user (F : fs) : fs := with_source F [lit "main"] (Some (ex_user_text, 1)).
Definition ex_edited : fs := with_user (with_source ex_fresh [lit "report"] (Some (ex_report_text "6", 9))).
Definition ex_program_file (f : file) : Prop := f = [lit "report"] \/ f = [lit "main"].
Lemma run_sound E uc kv name F last order r : ex_run E uc kv name F last order = Some r -> compiles E uc kv (lit name) F r.
Proof. unfold ex_run. apply exec_compile_sound. Qed.
Example ex_fresh_worked : worked_in ex_program_file ex_fresh.
Proof.
  unfold ex_fresh, files_after. destruct (ex_run (ex_E 5) true [] "report" ex_report false [["report"]]%string) as [[r F']|] eqn:X; [|apply w_start; reflexivity].
  apply (w_compile _ (ex_E 5) true [] (lit "report") ex_report r F'); [apply w_start; reflexivity|left; reflexivity| |exact (run_sound _ _ _ _ _ _ _ _ X)].
  intros main p r0 Lm Re. exfalso. assert (M : m_requires main = []).
  { assert (K : match load_from_cache_from_filename (ex_E 5) ex_report [lit "report"] [lit "report"] with Ok m => m_requires m = [] | _ => True end) by (vm_compute; reflexivity). rewrite Lm in K. exact K. }
  refine (reached _ main [] _ _ _ _ Re); [rewrite M; intros q []|intros ? ? ? ? []].
Qed.
Notation ex_user_run := (ex_run (ex_E 10) true [] "main" ex_edited false [["report"]; ["main"]]%string).
Lemma ex_user_panics : match ex_user_run with Some (Panic, _) => True | _ => False end.
Proof. vm_compute. exact I. Qed.
Lemma ex_user_main : match load_from_cache_from_filename (ex_E 10) ex_edited [lit "main"] [lit "main"] with Ok m => m_requires m = [[lit "report"]] /\ m_path m = [lit "main"] | _ => False end.
Proof. vm_compute. split; reflexivity. Qed.
Lemma ex_user_import : match load_one (ex_E 10) ex_edited true [lit "report"] [lit "main"] with Ok m => m_requires m = [] | _ => False end.
Proof. vm_compute. reflexivity. Qed.
Lemma ex_user_texts : match sources ex_edited [lit "main"] with Some (tx, _) => match load_source ex_co tx with Panic => False | _ => True end | None => True end
  /\ match sources ex_edited (filename_relative_to [lit "report"] [lit "main"]) with Some (tx, _) => match load_source ex_co tx with Panic => False | _ => True end | None => True end.
Proof. vm_compute. split; exact I. Qed.
Lemma ex_user_compiles : exists G, compiles (ex_E 10) true [] (lit "main") ex_edited (Panic, G).
Proof.
  pose proof ex_user_panics as K. destruct ex_user_run as [[r G]|] eqn:X; [|destruct K]. destruct r; try destruct K. exists G. exact (run_sound _ _ _ _ _ _ _ _ X).
Qed.
Lemma ex_user_reach main p r : load_from_cache_from_filename (ex_E 10) ex_edited [lit "main"] [lit "main"] = Ok main -> reachable (load_one (ex_E 10) ex_edited true) main p r -> (p, r) = ([lit "report"], [lit "main"]).
Proof.
  intros L H. pose proof ex_user_main as Lm. rewrite L in Lm. destruct Lm as [L1 L2]. apply (reached _ main [([lit "report"], [lit "main"])]) in H; [destruct H as [H|[]]; symmetry; exact H| |].
  - rewrite L1, L2. intros q [<-|[]]. left. reflexivity.
  - intros p0 r0 m q [I|[]] Lq Iq. apply pair_equal_spec in I as [<- <-]. pose proof ex_user_import as Lr. rewrite Lq in Lr. rewrite Lr in Iq. destruct Iq.
Qed.
Lemma ex_user_no_cause : ~ crash_cause (ex_E 10) true ex_edited (lit "main").
Proof.
  intro C. pose proof ex_user_texts as [T1 T2]. destruct C as [text t S1 S2|main p r text t L H S1 S2|main L N|main p r q r' m e L H Lq Iq H' Le].
  - change (e_co (ex_E 10)) with ex_co in S2. rewrite S1, S2 in T1. exact T1.
  - apply (ex_user_reach _ _ _ L) in H. apply pair_equal_spec in H as [-> ->]. change (e_co (ex_E 10)) with ex_co in S2. rewrite S1, S2 in T2. exact T2.
  - pose proof ex_user_main as Lm. rewrite L in Lm. destruct Lm as [L1 _]. rewrite L1 in N. apply N. repeat constructor. intros [].
  - apply (ex_user_reach _ _ _ L) in H'. apply pair_equal_spec in H' as [-> ->]. pose proof ex_user_import as Lr. rewrite Le in Lr. exact Lr.
Qed.
(** A program that others import, too, can crash for another reason. *)
Theorem C96_edited_program_imported_refuted : exists programs F E G, worked_in programs F /\ programs [lit "main"]
  /\ compiles E true [] (lit "main") F (Panic, G) /\ ~ crash_cause E true F (lit "main").
Proof.
  destruct ex_user_compiles as [G C]. exists ex_program_file, ex_edited, (ex_E 10), G. split; [apply w_edit, w_edit, ex_fresh_worked|]. split; [right; reflexivity|]. split; [exact C|exact ex_user_no_cause].
Qed.
Print Assumptions C96_edited_program_imported_refuted.

(** The theorem applies: the report compiles again after it was edited, in the directory where it was compiled before; and a program that imports a module twice crashes for the second cause. *)
Definition ex_again : fs := with_source ex_fresh [lit "report"] (Some (ex_report_text "6", 9)).
Lemma ex_again_run : match ex_run (ex_E 10) true [] "report" ex_again false [["report"]]%string with Some (Ok m, _) => output_of m = [[lit "6"; lit "end"]; [lit "6"; lit "end"]] | _ => False end.
Proof. vm_compute. reflexivity. Qed.
Lemma ex_again_main : match load_from_cache_from_filename (ex_E 10) ex_again [lit "report"] [lit "report"] with Ok m => m_requires m = [] | _ => False end.
Proof. vm_compute. reflexivity. Qed.
Lemma ex_twice_main : match load_from_cache_from_filename (ex_E 5) ex_twice [lit "main"] [lit "main"] with Ok m => m_requires m = [[lit "one"]; [lit "one"]] | _ => False end.
Proof. vm_compute. reflexivity. Qed.
Example C96_nonvacuous :
  (exists m G, worked_in ex_program_file ex_again /\ ex_program_file [lit "report"] /\ imports_no_program ex_program_file (ex_E 10) true ex_again (lit "report")
     /\ compiles (ex_E 10) true [] (lit "report") ex_again (Ok m, G) /\ output_of m = [[lit "6"; lit "end"]; [lit "6"; lit "end"]])
  /\ crash_cause (ex_E 5) true ex_twice (lit "main") /\ exists G, yields (ex_E 5) true [] "main" ex_twice Panic G.
Proof.
  split; [|split; [|apply C31_import_twice_refuted]].
  - pose proof ex_again_run as K. destruct (ex_run (ex_E 10) true [] "report" ex_again false [["report"]]%string) as [[r G]|] eqn:X; [|destruct K]. destruct r as [m| | |]; [|destruct K..]. exists m, G.
    split; [apply w_edit, ex_fresh_worked|]. split; [left; reflexivity|]. split; [|split; [exact (run_sound _ _ _ _ _ _ _ _ X)|exact K]].
    intros main p r0 Lm Re. exfalso. pose proof ex_again_main as M. rewrite Lm in M. refine (reached _ main [] _ _ _ _ Re); [rewrite M; intros q []|intros ? ? ? ? []].
  - pose proof ex_twice_main as M. destruct (load_from_cache_from_filename (ex_E 5) ex_twice [lit "main"] [lit "main"]) as [main| | |] eqn:L; [|destruct M..]. apply (cc_twice _ _ _ _ main L). rewrite M. intro N. inversion N as [|? ? A B]; subst. apply A. left. reflexivity.
Qed.
