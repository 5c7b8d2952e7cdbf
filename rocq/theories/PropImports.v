(** * PropImports: what is written is what the program means, for programs in several files (C80). *)
From Coq Require Import Relations.
From Verif Require HistoryProofs.
From Verif Require Import Base BaseProofs Csvp SourceCode Ast AstProofs AstLexer AstParser Eval EvalSpec EvalProofs EvalRounds ParsedPlain Options CellParser PropCell Sheet SheetSpec SheetProofs SheetProofs2 SheetProofs3 PropSheet
  PropVariables PropEval ModuleSpec ModuleProofs ModuleProofs2 ModuleProofs3 ModuleProofs4 Loader LoaderSpec LoaderProofs LoaderProofs2 LoaderProofs3 PropLoader PropCache Targets PropTarget Files Cli PropFiles CompileSpec PropCompile PropModules PropCli
  ProgramSpec ProgramProofs PropProgram ImportSpec.

(** what unfolds with the modules' definitions unfolds with those of the one file *)
Section Unfold.
  Variables (sc0 sc1 sc2 : scope) (pos : option address).
  Hypothesis Hd : plain_defs sc0.
  Hypothesis Ha : parameters_apart sc0.
  Hypothesis V1 : forall x g, assoc x (variables sc0) = Some g -> assoc x (variables sc1) = Some g.
  Hypothesis F1 : forall f, assoc f (functions sc1) = assoc f (functions sc0).
  Hypothesis V2 : forall x g, assoc x (variables sc2) = Some g ->
    (exists nm nm' v v', assoc x (variables sc0) = Some (NVar nm (VAst v)) /\ g = NVar nm' (VAst v') /\ clos_refl_trans node (unf sc0 None) v v')
    \/ assoc x (variables sc1) = Some g.
  Hypothesis F2 : forall f g, assoc f (functions sc2) = Some g -> exists ps b b' nm nm',
    assoc f (functions sc0) = Some (NFn ps b nm) /\ g = NFn ps b' nm' /\ clos_refl_trans node (unf sc0 None) b b'.
  Notation steps1 := (clos_refl_trans node (unf sc1 pos)).
  Lemma unf2_steps1 n n' : unf sc2 pos n n' -> steps1 n n'.
  Proof.
    intro U. induction U using unf_induction.
    - apply rt_refl.
    - destruct (node2 sc0 sc1 sc2 pos V2 _ _ H) as [[w [v' [A [Q S2]]]]|A]; [|apply rt_step; apply u_var; exact A]. injection Q as <-.
      eapply rt_trans; [apply rt_step; apply u_var; apply (node0_node1 sc0 sc1 pos Hd V1); exact A|]. apply (steps0_steps1 sc0 sc1 pos Hd V1 F1). exact S2.
    - apply steps_infix; assumption.
    - apply (steps_args sc1 pos f args args' H0 []).
    - destruct (F2 _ _ H) as [ps2 [b2 [b' [nm2 [nm' [A [Q S2]]]]]]]. injection Q as <- <- <-.
      eapply rt_trans; [apply (steps_args sc1 pos f args args' H2 [])|].
      pose proof (Forall2_len _ _ _ H1) as L.
      eapply rt_trans; [apply rt_step; eapply u_call; [rewrite F1; exact A|cbn [app]; congruence|apply Forall2_same; apply u_refl]|].
      apply (steps0_steps1 sc0 sc1 pos Hd V1 F1). apply steps_subst_params; [exact Hd|exact Ha| |exact S2]. intros p a I. apply combine_In in I as [I _]. exists f, ps, b2, nm2. auto.
  Qed.
  Lemma steps2_steps1 n n' : clos_refl_trans node (unf sc2 pos) n n' -> steps1 n n'.
  Proof. induction 1; [apply unf2_steps1; assumption|apply rt_refl|eapply rt_trans; eauto]. Qed.
End Unfold.

Lemma load_one_source E F uc name p r m : (uc = true -> forall f, f <> [name] -> no_object F f) -> filename_relative_to p r <> [name] -> load_one E F uc p r = Ok m ->
  load_from_source E F p (filename_relative_to p r) = Ok m.
Proof.
  intros No Nf Lo. unfold load_one in Lo. destruct uc; [|exact Lo]. unfold load_from_cache, load_from_object in Lo. specialize (No eq_refl _ Nf). unfold no_object in No.
  destruct (objects F _) as [[[?|] ?]|]; [destruct No|exact Lo|exact Lo].
Qed.
Lemma source_module E F p f m : load_from_source E F p f = Ok m -> exists text, load_source (e_co E) text = Ok (m_program m) /\ m_path m = p /\ m_needs_eval m = true.
Proof.
  unfold load_from_source. destruct (sources F f) as [[tx ?]|]; [|discriminate]. destruct (load_source (e_co E) tx) as [pg| | |] eqn:Lp; try discriminate. intro Q. injection Q as <-. exists tx. split; [exact Lp|]. split; reflexivity.
Qed.

(** the definitions of a gathered program *)
Section Gathered.
  Variables (E : env) (uc : bool) (name : str) (F : fs) (main : module) (whole : scope).
  Hypothesis Lm : load_from_source E F [name] [name] = Ok main.
  Hypothesis No : uc = true -> forall f, f <> [name] -> no_object F f.
  Notation l := (load_one E F uc).
  Hypothesis Ne : forall p r, reachable l main p r -> filename_relative_to p r <> [name].
  Hypothesis Ga : gathers l main whole.
  Lemma part_source m : takes_part l main m -> exists text, load_source (e_co E) text = Ok (m_program m).
  Proof.
    intros [->|[p [r [R L]]]]; [destruct (source_module _ _ _ _ _ Lm) as [t [Q _]]; eauto|]. apply (load_one_source _ _ _ _ _ _ _ No (Ne _ _ R)) in L. destruct (source_module _ _ _ _ _ L) as [t [Q _]]. eauto.
  Qed.
  Lemma whole_plain : plain_defs whole.
  Proof.
    destruct Ga as [_ [Gv Gf]]. split.
    - intros f g Q. apply Gf in Q as [m [T A]]. destruct (part_source _ T) as [t Ld]. destruct (load_plain _ _ _ Ld) as [Dp _]. exact (proj1 Dp _ _ A).
    - intros x g Q. apply Gv in Q as [m [T A]]. destruct (part_source _ T) as [t Ld]. destruct (load_plain _ _ _ Ld) as [Dp _]. exact (proj2 Dp _ _ A).
  Qed.
  Lemma part_whole m : takes_part l main m -> part_of (m_scope m) whole.
  Proof. intro T. destruct Ga as [_ [Gv Gf]]. split; intros x g Q; [apply Gv|apply Gf]; eauto. Qed.
  Lemma part_refined m : takes_part l main m -> refines whole (m_scope m).
  Proof. intro T. apply part_refines; [apply whole_plain|apply part_whole; exact T|]. destruct (part_source _ T) as [t Ld]. exact (proj2 (load_source_unique _ _ _ Ld)). Qed.
End Gathered.

(** the two scopes in which the cells are evaluated: with the modules' definitions and in one file *)
Section Cells.
  Variables (p : program) (sc2 : scope) (req : list module_path) (args : list (str * node)).
  Notation pB := {| pr_scope := sc2; pr_sheet := pr_sheet p; pr_required := req |}.
  Hypothesis Dp : plain_defs (pr_scope p).
  Hypothesis Sp : plain_sheet (pr_sheet p).
  Hypothesis U : NoDup (map fst (variables (pr_scope p))).
  Hypothesis Fe : fills_expanded (pr_sheet p) = false.
  Hypothesis Ua : NoDup (map fst args).
  Hypothesis Da : forall x e, assoc x args = Some e -> plain e.
  Hypothesis G : good_fills (sheet_rows (pr_sheet p)).
  Hypothesis Pa : parameters_apart (pr_scope p).
  Hypothesis Na : names_apart p args.
  Hypothesis Nc : uncaptured_names p args.
  Hypothesis Rf : refines (pr_scope p) sc2.
  Variables (pA1 pB1 : program).
  Hypothesis HA : module_eval_fills p = Ok pA1.
  Hypothesis HB : module_eval_fills pB = Ok pB1.
  Notation sA := (sheet_scope pA1 args).
  Notation sB := (sheet_scope pB1 args).
  Lemma one_sheet : pr_sheet pB1 = pr_sheet pA1 /\ pr_scope pB1 = sc2 /\ pr_scope pA1 = pr_scope p /\ eval_fills (pr_sheet p) = Some (pr_sheet pA1).
  Proof.
    unfold module_eval_fills in HA, HB. cbn [pr_sheet pr_scope pr_required] in HB. destruct (eval_fills (pr_sheet p)) as [s|]; [|discriminate]. injection HA as <-. injection HB as <-. auto.
  Qed.
  Lemma apart x : assoc x (sheet_variables (pr_sheet pA1)) <> None \/ assoc x args <> None -> assoc x (variables (pr_scope p)) = None.
  Proof.
    destruct one_sheet as [_ [_ [_ Ef]]]. intros [H|H].
    - destruct (binds_dec {| pr_scope := pr_scope p; pr_sheet := pr_sheet pA1; pr_required := [] |} x) as [[t [f B]]|Hb]; cbn [pr_sheet] in *.
      + destruct (binds_expanded _ _ Ef Fe _ _ _ B) as [i [r' [k [A [_ [_ [D _]]]]]]]. eapply (proj1 Na). exact D.
      + exfalso. apply H. apply sheet_variables_none. exact Hb.
    - destruct (assoc x args) as [e|] eqn:Q; [|contradiction]. apply (proj2 Na). apply (in_map fst _ (x, e)), assoc_In, Q.
  Qed.
  Lemma variables_A x : assoc x (variables sA) = match assoc x (variables (pr_scope p)) with Some v => Some v | None => match assoc x (sheet_variables (pr_sheet pA1)) with Some v => Some v | None => assoc x args end end.
  Proof. destruct one_sheet as [_ [_ [QA _]]]. rewrite sheet_scope_assoc by (rewrite ?QA; assumption). rewrite QA. reflexivity. Qed.
  Lemma variables_B x : assoc x (variables sB) = match assoc x (variables sc2) with Some v => Some v | None => match assoc x (sheet_variables (pr_sheet pA1)) with Some v => Some v | None => assoc x args end end.
  Proof. destruct one_sheet as [QS [QB _]]. rewrite sheet_scope_assoc by (rewrite ?QB; try assumption; exact (proj1 Rf)). rewrite QB, QS. reflexivity. Qed.
  Lemma cells_V1 x g : assoc x (variables (pr_scope p)) = Some g -> assoc x (variables sA) = Some g.
  Proof. intro Q. rewrite variables_A, Q. reflexivity. Qed.
  Lemma cells_F1 f : assoc f (functions sA) = assoc f (functions (pr_scope p)).
  Proof. rewrite (scope_functions p pA1 args HA). reflexivity. Qed.
  Lemma cells_V2 x g : assoc x (variables sB) = Some g ->
    (exists nm nm' v v', assoc x (variables (pr_scope p)) = Some (NVar nm (VAst v)) /\ g = NVar nm' (VAst v') /\ clos_refl_trans node (unf (pr_scope p) None) v v') \/ assoc x (variables sA) = Some g.
  Proof.
    intro Q. rewrite variables_B in Q. destruct (assoc x (variables sc2)) as [g'|] eqn:Q2; [injection Q as <-; left; exact (proj1 (proj2 Rf) _ _ Q2)|]. right. rewrite variables_A.
    rewrite apart; [exact Q|]. destruct (assoc x (sheet_variables _)); [left; discriminate|right; congruence].
  Qed.
  Lemma functions_B f : assoc f (functions sB) = assoc f (functions sc2).
  Proof. rewrite (scope_functions pB pB1 args HB). reflexivity. Qed.
  Lemma cells_F2 f g : assoc f (functions sB) = Some g -> exists ps b b' nm nm',
    assoc f (functions (pr_scope p)) = Some (NFn ps b nm) /\ g = NFn ps b' nm' /\ clos_refl_trans node (unf (pr_scope p) None) b b'.
  Proof. rewrite functions_B. exact (proj2 (proj2 Rf) f g). Qed.
  Notation rows := (sheet_rows (pr_sheet p)).
  Lemma plain_A pos : plain_scope sA (Some pos).
  Proof. eapply scope_plain; eauto. Qed.
  Lemma hygienic_A pos : hygienic sA (Some pos).
  Proof. eapply scope_hygienic; eauto. Qed.
  Lemma plain_B pos : plain_scope sB (Some pos).
  Proof. apply (plain2 (pr_scope p) sA sB (Some pos)); [exact Dp|apply plain_A|exact cells_V2|exact cells_F2]. Qed.
  Lemma hygienic_B pos : hygienic sB (Some pos).
  Proof. apply (hygienic2 (pr_scope p) sA sB (Some pos)); [exact Pa|exact cells_F1|apply hygienic_A|exact cells_V2|exact cells_F2]. Qed.
  Lemma uncaptured_B n : uncaptured sA [] n -> uncaptured sB [] n.
  Proof. apply (uncaptured2 (pr_scope p) sA sB); [exact cells_F1|exact cells_F2]. Qed.
  (** evaluating a cell of the program in several files *)
  Lemma evaluated_steps r c n n' pos fuel ord : In r rows -> In c (row_cells r) -> cell_ast c = Some n -> ast_eval fuel ord sB (Some pos) n = Ok n' ->
    clos_refl_trans node (unf sA (Some pos)) n n' /\ plain n'.
  Proof.
    intros Hr Hc Hn Ev. assert (Pn : plain n) by (eapply Sp; eauto). assert (Un : uncaptured sA [] n) by (eapply cell_uncaptured; eauto).
    assert (S2 : clos_refl_trans node (unf sB (Some pos)) n n') by (eapply eval_loop_steps; [apply plain_B|apply hygienic_B|exact Pn|apply uncaptured_B; exact Un|exact Ev]).
    assert (S1 : clos_refl_trans node (unf sA (Some pos)) n n') by (eapply (steps2_steps1 (pr_scope p) sA sB); [exact Dp|exact Pa|exact cells_V1|exact cells_F1|exact cells_V2|exact cells_F2|exact S2]).
    split; [exact S1|]. eapply steps_inv; [apply plain_A|apply hygienic_A|exact S1|exact Pn|exact Un].
  Qed.
  Lemma cell_written r c n n' pos fuel ord : In r rows -> In c (row_cells r) -> cell_ast c = Some n -> ast_eval fuel ord sB (Some pos) n = Ok n' ->
    (forall m, means p args (addr_y pos) n m <-> means p args (addr_y pos) n' m) /\ (finished p args (addr_y pos) n' -> means p args (addr_y pos) n n').
  Proof.
    intros Hr Hc Hn Ev. destruct (evaluated_steps _ _ _ _ _ _ _ Hr Hc Hn Ev) as [S1 Pn'].
    assert (T1 : forall n m, expands sA (Some pos) n m -> means p args (addr_y pos) n m) by (intros; eapply expands_means; eauto; exact (proj2 Dp)).
    assert (T2 : forall n m, means p args (addr_y pos) n m -> expands sA (Some pos) n m) by (intros; eapply means_expands; eauto; exact (proj2 Dp)).
    assert (K : forall m, expands sA (Some pos) n m <-> expands sA (Some pos) n' m) by (intro m; apply steps_expands; [apply plain_A|exact S1]).
    split.
    - intro m. split; intro M; apply T1; apply K; apply T2; exact M.
    - intro Fi. apply T1. apply K. apply nothing_known_expands; [exact Pn'|]. eapply finished_known; eauto. exact (proj2 Dp).
  Qed.
End Cells.

(** A program in several files, in which nothing is defined twice: whenever it compiles, what is written means what the same program in
    one file means. *)
Theorem C80_imports_written_partial : forall E use_cache kvs args name F m F' text time p whole,
  compiles E use_cache args name F (Ok m, F') -> no_object F [name] \/ older_object F [name] ->
  sources F [name] = Some (text, time) -> load_source (e_co E) text = Ok p ->
  parse_key_values (co_oracle (e_co E)) kvs [] = Ok args ->
  (* nothing is cached for the imported modules, and none of them imports the main module *)
  (use_cache = true -> forall f, f <> [name] -> no_object F f) ->
  (forall main, load_from_source E F [name] [name] = Ok main ->
     gathers (load_one E F use_cache) main whole /\ forall q r, reachable (load_one E F use_cache) main q r -> filename_relative_to q r <> [name]) ->
  parameters_apart whole -> names_apart (in_one_file p whole) args ->
  good_fills (sheet_rows (pr_sheet p)) -> uncaptured_names (in_one_file p whole) args ->
  output_rows (in_one_file p whole) (written (in_one_file p whole) args) (sheet_texts (pr_sheet (m_program m))).
Proof.
  intros E uc kvs args name F m F' text time p whole C No So Ld Kv Nob Ga Pa Na G Nc.
  destruct (load_plain _ _ _ Ld) as [_ [Sp Fe]].
  assert (Ua : NoDup (map fst args)) by (eapply key_values_unique; [|exact Kv]; constructor).
  assert (Da : forall x e, assoc x args = Some e -> plain e) by (eapply key_values_plain; [|exact Kv]; intros x e Q2; discriminate Q2).
  destruct (compiled_main _ _ _ _ _ _ _ _ _ _ C No So Ld) as (main & sh & order & ld & F1 & sc2 & Lm & Mp & R & _ & Ed & Mr & Me).
  destruct (Ga _ Lm) as [Gw Ne]. pose proof (whole_plain E uc name F main whole Lm Nob Ne Gw) as Hd.
  assert (Rf : refines whole sc2).
  { eapply merge_required_refines; [| |exact Mr].
    - eapply (dependencies_refine whole Hd Pa); [|exact Ed]. intros q mq I. destruct (run_loaded _ _ _ _ R q mq I) as [r [Re Lo]].
      eapply (part_refined E uc name F main whole Lm Nob Ne Gw). right. eauto.
    - pose proof (part_refined E uc name F main whole Lm Nob Ne Gw main (or_introl eq_refl)) as X. unfold m_scope in X. rewrite Mp in X. exact X. }
  set (p0 := in_one_file p whole).
  eapply (from_eval {| pr_scope := sc2; pr_sheet := pr_sheet p; pr_required := pr_required p |} args Fe _ _ _ (written p0 args) Me).
  intros pB1 i r k x c Mf Hr Hc a. unfold written. destruct (cell_ast c) as [n|] eqn:Ac; [|reflexivity]. intros n' Ev. exists n'. split; [reflexivity|].
  assert (exists pA1, module_eval_fills p0 = Ok pA1) as [pA1 MA].
  { unfold module_eval_fills in *. cbn [p0 in_one_file pr_sheet] in *. destruct (eval_fills (pr_sheet p)) as [s|]; [eauto|discriminate]. }
  eapply (cell_written p0 sc2 (pr_required p) args Hd Sp (proj1 Gw) Fe Ua Da G Pa Na Nc Rf pA1 pB1 MA Mf r c n n' a); eauto using nth_error_In.
Qed.
Print Assumptions C80_imports_written_partial.
(** ** Flat calls stay flat while definitions are evaluated *)
Lemma quiet_args p f es : calls_nothing p (NCall es f) <-> assoc f (functions (pr_scope p)) = None /\ Forall (calls_nothing p) es.
Proof.
  unfold calls_nothing. rewrite calls_call, Forall_forall. split.
  - intro H. split; [apply H; left; reflexivity|]. intros e He g Hg. apply H. right. apply in_flat_map. eauto.
  - intros [H1 H2] g [<-|Hg]; [exact H1|]. apply in_flat_map in Hg as [e [He Hg]]. eapply H2; eauto.
Qed.
Lemma quiet_infix p l op r : calls_nothing p (NInfix l op r) <-> calls_nothing p l /\ calls_nothing p r.
Proof. unfold calls_nothing. cbn [call_names]. split; [intro H; split; intros g Hg; apply H; apply in_or_app; auto|intros [A B] g Hg; apply in_app_or in Hg as [Hg|Hg]; auto]. Qed.
Lemma quiet_subst p s n : calls_nothing p n -> (forall x a, In (x, a) s -> calls_nothing p a) -> calls_nothing p (subst s n).
Proof. intros H Hs g Hg. apply calls_subst in Hg as [Hg|[x [a [I [_ Hg]]]]]; [apply H, Hg|eapply Hs; eauto]. Qed.
Lemma flat_subst p s n : flat p n -> (forall x a, In (x, a) s -> calls_nothing p a) -> flat p (subst s n).
Proof.
  intros H Hs. induction n using node_induction; try exact I.
  - cbn [subst]. apply flat_call in H as [A B]. apply flat_call. rewrite map_length. split.
    + intros ps body nm Q. destruct (A _ _ _ Q) as [L C]. split; [exact L|]. rewrite Forall_forall in *. intros e He. apply in_map_iff in He as [e0 [<- He]]. apply quiet_subst; auto.
    + rewrite Forall_forall in *. intros e He. apply in_map_iff in He as [e0 [<- He]]. auto.
  - destruct H. cbn [subst flat]. auto.
  - cbn [subst]. destruct (assoc r s) as [a|] eqn:Q; [|exact I]. apply quiet_flat. eapply Hs, assoc_In, Q.
  - cbn [subst]. destruct v; exact I.
Qed.
Section Flat.
  Variables (p : program) (rf : str -> nat).
  Hypothesis Fv : forall x v, variable_node (pr_scope p) None x = Some (Ok v) -> calls_nothing p v.
  Hypothesis Ff : forall f ps body nm, assoc f (functions (pr_scope p)) = Some (NFn ps body nm) -> flat p body.
  Hypothesis Rg : forall f ps body nm g, assoc f (functions (pr_scope p)) = Some (NFn ps body nm) -> In g (call_names body) -> assoc g (functions (pr_scope p)) <> None -> rf g < rf f.
  Notation unf0 := (unf (pr_scope p) None).
  Notation steps0 := (clos_refl_trans node unf0).
  Lemma quiet_unf n n' : unf0 n n' -> calls_nothing p n -> calls_nothing p n'.
  Proof.
    intro U. induction U using unf_induction; intro Q.
    - exact Q.
    - eapply Fv; eauto.
    - apply quiet_infix in Q as [A B]. apply quiet_infix. auto.
    - apply quiet_args in Q as [A B]. apply quiet_args. split; [exact A|]. clear H. induction H0; constructor; inversion B; subst; auto.
    - apply quiet_args in Q as [A _]. congruence.
  Qed.
  Lemma quiet_all args args' : Forall2 (fun n n' => unf0 n n') args args' -> Forall (calls_nothing p) args -> Forall (calls_nothing p) args'.
  Proof. induction 1 as [|a b l l' H _ IH]; intro Q; constructor; inversion Q; subst; [eapply quiet_unf; eauto|auto]. Qed.
  Lemma flat_unf n n' : unf0 n n' -> flat p n -> flat p n'.
  Proof.
    intro U. induction U using unf_induction; intro Q.
    - exact Q.
    - apply quiet_flat. eapply Fv; eauto.
    - destruct Q. split; auto.
    - apply flat_call in Q as [A B]. apply flat_call. split.
      + intros ps body nm Q. destruct (A _ _ _ Q) as [L C]. split; [rewrite <- L; symmetry; eapply Forall2_len; eauto|]. eapply quiet_all; eauto.
      + clear A H. induction H0; constructor; inversion B; subst; auto.
    - apply flat_call in Q as [A B]. destruct (A _ _ _ H) as [L C]. apply flat_subst; [eapply Ff; eauto|]. pose proof (quiet_all _ _ H1 C) as Z. rewrite Forall_forall in Z. intros x a I. apply combine_In in I as [_ I]. apply Z, I.
  Qed.
  Lemma rank_unf k n n' : unf0 n n' -> (forall g, In g (call_names n) -> assoc g (functions (pr_scope p)) <> None -> rf g < k) -> forall g, In g (call_names n') -> assoc g (functions (pr_scope p)) <> None -> rf g < k.
  Proof.
    assert (X : forall args args', Forall2 (fun n n' => (forall g, In g (call_names n) -> assoc g (functions (pr_scope p)) <> None -> rf g < k) -> forall g, In g (call_names n') -> assoc g (functions (pr_scope p)) <> None -> rf g < k) args args' ->
      (forall g, In g (flat_map call_names args) -> assoc g (functions (pr_scope p)) <> None -> rf g < k) -> forall e g, In e args' -> In g (call_names e) -> assoc g (functions (pr_scope p)) <> None -> rf g < k).
    { induction 1 as [|a b l l' H _ IH]; intros Q e g; [intros []|]. cbn [flat_map] in Q. intros [<-|I] Hg; [apply H; [|exact Hg]|eapply IH; eauto]; intros g' Hg'; apply Q; apply in_or_app; auto. }
    intro U. induction U using unf_induction; intros Q g Hg Kg.
    - auto.
    - exfalso. apply Kg. eapply Fv; eauto.
    - cbn [call_names] in *. apply in_app_or in Hg as [Hg|Hg]; [apply (IHU1 (fun g' H1 => Q g' (in_or_app _ _ _ (or_introl H1))) g Hg Kg)|apply (IHU2 (fun g' H1 => Q g' (in_or_app _ _ _ (or_intror H1))) g Hg Kg)].
    - rewrite calls_call in *. destruct Hg as [<-|Hg]; [apply Q; [left; reflexivity|exact Kg]|]. apply in_flat_map in Hg as [e [He Hg]]. eapply X; eauto. intros g' Hg'. apply Q. right. exact Hg'.
    - rewrite calls_call in Q. apply calls_subst in Hg as [Hg|[x [a [I [_ Hg]]]]].
      + specialize (Rg _ _ _ _ _ H Hg Kg). specialize (Q f (or_introl eq_refl) ltac:(congruence)). lia.
      + apply combine_In in I as [_ I]. eapply X; eauto. intros g' Hg'. apply Q. right. exact Hg'.
  Qed.
  Lemma quiet_steps n n' : steps0 n n' -> calls_nothing p n -> calls_nothing p n'.
  Proof. induction 1; eauto using quiet_unf. Qed.
  Lemma flat_steps n n' : steps0 n n' -> flat p n -> flat p n'.
  Proof. induction 1; eauto using flat_unf. Qed.
  Lemma rank_steps k n n' : steps0 n n' -> (forall g, In g (call_names n) -> assoc g (functions (pr_scope p)) <> None -> rf g < k) -> forall g, In g (call_names n') -> assoc g (functions (pr_scope p)) <> None -> rf g < k.
  Proof. induction 1; intro Q; [eapply rank_unf; eauto|exact Q|auto]. Qed.
  (** names that are defined, and their ranks *)
  Variables (K : str -> Prop) (rv : str -> nat).
  Hypothesis Kv : forall x v, variable_node (pr_scope p) None x = Some (Ok v) -> K x /\ forall y, In y (ref_names v) -> K y -> rv y < rv x.
  Lemma names_unf k n n' : unf0 n n' -> calls_nothing p n -> (forall y, In y (ref_names n) -> K y -> rv y < k) -> forall y, In y (ref_names n') -> K y -> rv y < k.
  Proof.
    intro U. induction U using unf_induction; intros Qc Q y Hy Ky.
    - auto.
    - destruct (Kv _ _ H) as [Kx R]. specialize (R y Hy Ky). specialize (Q x (or_introl eq_refl) Kx). lia.
    - apply quiet_infix in Qc as [A B]. cbn [ref_names] in *. apply in_app_or in Hy as [Hy|Hy]; [apply (IHU1 A (fun z H1 => Q z (in_or_app _ _ _ (or_introl H1))) y Hy Ky)|apply (IHU2 B (fun z H1 => Q z (in_or_app _ _ _ (or_intror H1))) y Hy Ky)].
    - apply quiet_args in Qc as [_ B]. rewrite refs_call in *. apply in_flat_map in Hy as [e [He Hy]]. clear H. induction H0 as [|a b l l' H1 _ IH]; [destruct He|]. cbn [flat_map] in Q. inversion B as [|? ? B1 B2]; subst.
      destruct He as [<-|He]; [apply (H1 B1 (fun z H2 => Q z (in_or_app _ _ _ (or_introl H2))) y Hy Ky)|]. apply (IH B2 (fun z H2 => Q z (in_or_app _ _ _ (or_intror H2))) He).
    - apply quiet_args in Qc as [A _]. congruence.
  Qed.
  Lemma names_steps k n n' : steps0 n n' -> calls_nothing p n -> (forall y, In y (ref_names n) -> K y -> rv y < k) -> forall y, In y (ref_names n') -> K y -> rv y < k.
  Proof. induction 1; intros Qc Q; [eapply names_unf; eauto|exact Q|]. apply IHclos_refl_trans2; [eapply quiet_steps; eauto|auto]. Qed.
End Flat.

(** the merged scope has every definition that the main module sees *)
Lemma merge_required_covers : forall req ld sc sc', merge_required req ld sc = Some sc' -> HistoryProofs.grows sc sc' /\ forall q m, In q req -> passoc q ld = Some m -> HistoryProofs.covered sc' (m_scope m).
Proof.
  induction req as [|p req IH]; intros ld sc sc' H; cbn [merge_required] in H; [injection H as <-; split; [split; auto|intros q m []]|].
  destruct (passoc p ld) as [d|] eqn:P; [|discriminate]. destruct (IH _ _ _ H) as [Gr C]. split; [eapply HistoryProofs.grows_trans; [apply HistoryProofs.scope_merge_grows|exact Gr]|].
  intros q m Hq Q. destruct (path_eqb_spec q p) as [->|N].
  - rewrite P in Q. injection Q as <-. eapply HistoryProofs.covered_grows; [apply HistoryProofs.scope_merge_covers|exact Gr].
  - destruct Hq as [<-|Hq]; [contradiction|]. eapply C; [exact Hq|]. rewrite HistoryProofs.premove_other by exact N. exact Q.
Qed.
Lemma eval_definitions_exports fuel ord vars orig : forall ks sc sc', eval_definitions fuel ord vars ks orig sc = Ok sc' -> exports sc' = exports sc.
Proof.
  induction ks as [|k ks IH]; intros sc sc' H; cbn [eval_definitions] in H; [injection H as <-; reflexivity|]. destruct (assoc k orig) as [n|]; [|auto].
  apply bind_ok in H as [n' [_ H]]. apply IH in H. rewrite H. destruct vars; reflexivity.
Qed.
Lemma merge_scopes_exports scopes : forall req sc sc', merge_scopes scopes req sc = Some sc' -> exports sc' = exports sc.
Proof.
  induction req as [|p req IH]; intros sc sc' H; cbn [merge_scopes] in H; [injection H as <-; reflexivity|]. destruct (passoc p scopes) as [d|] eqn:P; [|discriminate].
  rewrite (IH _ _ H). unfold scope_merge. apply (scope_merge_spec d (exports d) sc []).
Qed.
Lemma in_order_grows E uc : forall order ld scopes F ld' F', eval_in_order E uc order ld scopes F = (Ok ld', F') ->
  forall q m, passoc q ld = Some m -> exists m', passoc q ld' = Some m' /\ HistoryProofs.grows (m_scope m) (m_scope m') /\ exports (m_scope m') = exports (m_scope m).
Proof.
  induction order as [|p order IH]; intros ld scopes F ld' F' H q m Q; cbn [eval_in_order] in H; [injection H as <- _; exists m; split; [exact Q|]; split; [split; auto|reflexivity]|].
  destruct (passoc p ld) as [mp|] eqn:P; [|eauto]. destruct (negb (m_needs_eval mp)); [eauto|].
  destruct (merge_scopes _ _ _) as [sc|] eqn:M; [|discriminate]. destruct (eval_scope E p sc) as [sc'| | |] eqn:V; try discriminate. cbv zeta in H.
  assert (X : exists m1, passoc q (pinsert p (with_scope mp sc') ld) = Some m1 /\ HistoryProofs.grows (m_scope m) (m_scope m1) /\ exports (m_scope m1) = exports (m_scope m)).
  { destruct (path_eqb_spec q p) as [->|N].
    - rewrite passoc_insert_same. rewrite P in Q. injection Q as <-. exists (with_scope mp sc'). split; [reflexivity|]. change (m_scope (with_scope mp sc')) with sc'. split.
      + eapply HistoryProofs.grows_trans; [exact (proj1 (HistoryProofs.merge_scopes_grows _ _ _ _ M))|eapply HistoryProofs.eval_scope_grows; exact V].
      + unfold eval_scope in V. apply bind_ok in V as [s1 [V1 V]]. apply eval_definitions_exports in V1. apply eval_definitions_exports in V. apply merge_scopes_exports in M. congruence.
    - rewrite passoc_insert_other by exact N. exists m. split; [exact Q|]. split; [split; auto|reflexivity]. }
  destruct X as [m1 [Q1 [G1 X1]]].
  assert (Y : exists F2, eval_in_order E uc order (pinsert p (with_scope mp sc') ld) (pinsert (m_path (with_scope mp sc')) sc' scopes) F2 = (Ok ld', F')) by (destruct uc; [destruct (write_object _ _ _); [|discriminate]|]; eauto).
  destruct Y as [F2 Y]. destruct (IH _ _ _ _ _ Y q m1 Q1) as [m' [A [B C]]]. exists m'. split; [exact A|]. split; [eapply HistoryProofs.grows_trans; eauto|congruence].
Qed.
(** ** Programs without circles and without nested calls *)
Section Meant.
  Variables (p : program) (sc2 : scope) (req : list module_path) (args : list (str * node)).
  Notation pB := {| pr_scope := sc2; pr_sheet := pr_sheet p; pr_required := req |}.
  Hypothesis Dp : plain_defs (pr_scope p).
  Hypothesis Sp : plain_sheet (pr_sheet p).
  Hypothesis U : NoDup (map fst (variables (pr_scope p))).
  Hypothesis Fe : fills_expanded (pr_sheet p) = false.
  Hypothesis Ua : NoDup (map fst args).
  Hypothesis Da : forall x e, assoc x args = Some e -> plain e.
  Hypothesis G : good_fills (sheet_rows (pr_sheet p)).
  Hypothesis Pa : parameters_apart (pr_scope p).
  Hypothesis Na : names_apart p args.
  Hypothesis Nc : uncaptured_names p args.
  Hypothesis Rf : refines (pr_scope p) sc2.
  Variables (B1 B2 : nat) (rv rf : str -> nat).
  Hypothesis Rb : forall x, rv x < B1.
  Hypothesis Rv : forall here x v y w, value_of p args here x v -> In y (ref_names v) -> value_of p args here y w -> rv y < rv x.
  Hypothesis Fc : forall r c n, In r (sheet_rows (pr_sheet p)) -> In c (row_cells r) -> cell_ast c = Some n -> flat p n.
  Hypothesis Fv : forall here x v, value_of p args here x v -> calls_nothing p v.
  Hypothesis Ff : forall f ps body nm, assoc f (functions (pr_scope p)) = Some (NFn ps body nm) -> flat p body.
  Hypothesis Rfb : forall f, rf f < B2.
  Hypothesis Rg : forall f ps body nm g, assoc f (functions (pr_scope p)) = Some (NFn ps body nm) -> In g (call_names body) -> assoc g (functions (pr_scope p)) <> None -> rf g < rf f.
  Notation steps0 := (clos_refl_trans node (unf (pr_scope p) None)).
  Lemma code_value here x v : variable_node (pr_scope p) None x = Some (Ok v) -> value_of p args here x v.
  Proof. unfold variable_node. destruct (assoc x (variables (pr_scope p))) as [g|] eqn:Q; [|discriminate]. destruct (proj2 Dp _ _ Q) as [nm [w [-> _]]]. intro H. injection H as <-. eapply v_code. exact Q. Qed.
  Lemma apart_sheet x t f : binds (pr_sheet p) x t f -> assoc x (variables (pr_scope p)) = None.
  Proof. apply (proj1 Na). Qed.
  Lemma value_B here x v' : value_of pB args here x v' -> exists v, value_of p args here x v /\ (v = v' \/ (variable_node (pr_scope p) None x = Some (Ok v) /\ steps0 v v')).
  Proof.
    intros [nm e H|t f text Hn Hl Hr|e Hn Hb Ha]; cbn [pr_scope pr_sheet] in *.
    - destruct (proj1 (proj2 Rf) _ _ H) as [nm1 [nm2 [v [w [A [Q S2]]]]]]. injection Q as <- <-. exists v. split; [eapply v_code; exact A|]. right. split; [apply (node_value _ _ _ _ A)|exact S2].
    - exists (NRef text). split; [|left; reflexivity]. eapply v_sheet; eauto. eapply apart_sheet. exact (proj1 Hl).
    - exists e. split; [|left; reflexivity]. apply v_arg; auto. apply (proj2 Na). apply (in_map fst _ (x, e)), assoc_In, Ha.
  Qed.
  Lemma function_B f g : assoc f (functions sc2) = Some g -> exists ps b b' nm nm', assoc f (functions (pr_scope p)) = Some (NFn ps b nm) /\ g = NFn ps b' nm' /\ steps0 b b'.
  Proof. exact (proj2 (proj2 Rf) f g). Qed.
  Lemma function_B_in f : assoc f (functions sc2) <> None -> assoc f (functions (pr_scope p)) <> None.
  Proof. destruct (assoc f (functions sc2)) as [g|] eqn:Q; [|congruence]. intros _. destruct (function_B _ _ Q) as [ps [b [b' [nm [nm' [A _]]]]]]. congruence. Qed.
  Lemma second_B x : second_parameter pB x -> second_parameter p x.
  Proof. intros [f [ps [body [nm [H I]]]]]. destruct (function_B _ _ H) as [ps2 [b [b' [nm2 [nm' [A [Q _]]]]]]]. injection Q as -> _ _. exists f, ps2, b, nm2. auto. Qed.
  Lemma second_is_parameter x : second_parameter p x -> parameter (pr_scope p) x.
  Proof. intros [f [ps [body [nm [H I]]]]]. exists f, ps, body, nm. split; [exact H|]. destruct ps; [destruct I|right; exact I]. Qed.
  Lemma quiet_B n : calls_nothing p n -> calls_nothing pB n.
  Proof. intros H f Hf. destruct (assoc f (functions (pr_scope pB))) eqn:Q; [|reflexivity]. exfalso. apply (function_B_in f); [cbn [pr_scope] in Q; congruence|apply H, Hf]. Qed.
  Lemma flat_B : forall n, flat p n -> flat pB n.
  Proof.
    induction n using node_induction; intro H'; try exact I.
    - apply flat_call in H' as [A B]. apply flat_call. split.
      + intros ps body nm Q. destruct (function_B _ _ Q) as [ps2 [b [b' [nm2 [nm' [A2 [Q2 _]]]]]]]. injection Q2 as -> _ _. destruct (A _ _ _ A2) as [L C]. split; [exact L|]. rewrite Forall_forall in *. intros e He. apply quiet_B. auto.
      + rewrite Forall_forall in *. auto.
    - destruct H'. split; auto.
  Qed.
  Lemma uncaptured_names_B : uncaptured_names pB args.
  Proof.
    destruct Nc as [N1 [N2 N3]]. split; [|split].
    - intros r c n x Hr Hc Hn Hx S2. apply second_B in S2. eapply N1; eauto.
    - intros here y v' x W Hx S2. apply second_B in S2. destruct (value_B _ _ _ W) as [v [Wv [->|[A S1]]]]; [eapply N2; eauto|].
      apply second_is_parameter in S2. destruct (steps0_names (pr_scope p) Pa [] _ _ S1 (var_value_names (pr_scope p) Pa _ _ A) x Hx) as [Q|[]]. contradiction.
    - intros f ps body nm x H Hx Hn S2. apply second_B, second_is_parameter in S2. destruct (function_B _ _ H) as [ps2 [b [b' [nm2 [nm' [A [Q S1]]]]]]]. injection Q as -> -> _.
      destruct (steps0_names (pr_scope p) Pa ps2 _ _ S1 (body_names (pr_scope p) Pa _ _ _ _ A) x Hx) as [Q|Q]; contradiction.
  Qed.
  Lemma values_quiet x v : variable_node (pr_scope p) None x = Some (Ok v) -> calls_nothing p v.
  Proof. intro H. eapply (Fv 0). apply code_value. exact H. Qed.
  Lemma plain_defs_B : plain_defs sc2.
  Proof.
    split.
    - intros f g Q. destruct (refined_fn (pr_scope p) Dp sc2 Rf _ _ Q) as [ps [b [b' [nm [nm' [A [-> [_ Pb]]]]]]]]. eauto.
    - intros x g Q. destruct (proj1 (proj2 Rf) _ _ Q) as [nm [nm' [v [v' [A [-> S1]]]]]]. exists nm', v'. split; [reflexivity|]. eapply steps0_plain; [exact Dp|exact S1|]. destruct (proj2 Dp _ _ A) as [nm2 [v2 [X Pv]]]. injection X as _ ->. exact Pv.
  Qed.
  Variables (pA1 pB1 : program).
  Hypothesis HA : module_eval_fills p = Ok pA1.
  Hypothesis HB : module_eval_fills pB = Ok pB1.
  Hypothesis Sv : forall x, assoc x (variables (pr_scope p)) <> None -> assoc x (variables sc2) <> None.
  Hypothesis Sf : forall f, assoc f (functions (pr_scope p)) <> None -> assoc f (functions sc2) <> None.
  Theorem cell_meant r c n pos ord fuel : In r (sheet_rows (pr_sheet p)) -> In c (row_cells r) -> cell_ast c = Some n -> is_order ord -> B1 + B2 < fuel ->
    exists m, means p args (addr_y pos) n m /\ finished p args (addr_y pos) m /\ ast_eval fuel ord (sheet_scope pB1 args) (Some pos) n = Ok m.
  Proof.
    intros Hr Hc Hn Ho Hfu.
    destruct (cell_evaluates pB args plain_defs_B Sp (proj1 Rf) Fe Ua Da G pB1 HB uncaptured_names_B B1 B2 rv rf Rb) with (r := r) (c := c) (n := n) (pos := pos) (ord := ord) (fuel := fuel) as [m [_ [Fi Ev]]]; auto.
    - intros here x v' y w W Hy W'. destruct (value_B _ _ _ W) as [v [Wv D]]. destruct (value_B _ _ _ W') as [w1 [Ww _]]. destruct D as [->|[A S1]]; [eapply Rv; eauto|].
      eapply (names_steps p rf values_quiet Ff Rg (fun z => exists w, value_of p args here z w) rv) with (k := rv x) (n := v) (n' := v'); [|exact S1|eapply values_quiet; exact A| |exact Hy|eauto].
      + intros z u Z. split; [exists u; apply code_value; exact Z|]. intros y0 Hy0 [w0 W0]. eapply Rv; [apply code_value; exact Z|exact Hy0|exact W0].
      + intros y0 Hy0 [w0 W0]. eapply Rv; eauto.
    - intros r0 c0 n0 Hr0 Hc0 Hn0. apply flat_B. eapply Fc; eauto.
    - intros here x v' W. apply quiet_B. destruct (value_B _ _ _ W) as [v [Wv [->|[A S1]]]]; [eapply Fv; eauto|]. eapply quiet_steps; [exact values_quiet|exact S1|eapply values_quiet; exact A].
    - intros f ps body nm Q. apply flat_B. destruct (function_B _ _ Q) as [ps2 [b [b' [nm2 [nm' [A [Q2 S1]]]]]]]. injection Q2 as _ -> _. eapply flat_steps; [exact values_quiet|exact Ff|exact S1|eapply Ff; eauto].
    - intros f ps body nm g Q Hg Kg. cbn [pr_scope] in *. apply function_B_in in Kg. destruct (function_B _ _ Q) as [ps2 [b [b' [nm2 [nm' [A [Q2 S1]]]]]]]. injection Q2 as _ -> _.
      eapply (rank_steps p rf values_quiet Ff Rg); [exact S1| |exact Hg|exact Kg]. intros g0 Hg0 Kg0. eapply Rg; eauto.
    - exists m. assert (Fp : finished p args (addr_y pos) m).
      { destruct Fi as [F1 F2]. split.
        - intros x v Hx W. assert (X : exists v', value_of pB args (addr_y pos) x v'); [|destruct X as [v' X]; eapply F1; eauto].
          destruct W as [nm e H|t f text Hq Hl Hrr|e Hq Hb Ha].
          + assert (Z : assoc x (variables sc2) <> None) by (apply Sv; congruence). destruct (assoc x (variables sc2)) as [g|] eqn:Q; [|congruence]. destruct (proj2 plain_defs_B _ _ Q) as [nm2 [v2 [-> _]]]. exists v2. eapply v_code. exact Q.
          + exists (NRef text). eapply v_sheet; eauto. cbn [pr_scope]. destruct (assoc x (variables sc2)) as [g|] eqn:Q; [|reflexivity]. destruct (proj1 (proj2 Rf) _ _ Q) as [? [? [? [? [A _]]]]]. congruence.
          + exists e. apply v_arg; auto. cbn [pr_scope]. destruct (assoc x (variables sc2)) as [g|] eqn:Q; [|reflexivity]. destruct (proj1 (proj2 Rf) _ _ Q) as [? [? [? [? [A _]]]]]. congruence.
        - intros f Hf. specialize (F2 f Hf). cbn [pr_scope] in F2. destruct (assoc f (functions (pr_scope p))) eqn:Q; [|reflexivity]. exfalso. apply (Sf f); congruence. }
      split; [|split; [exact Fp|exact Ev]].
      destruct (cell_written p sc2 req args Dp Sp U Fe Ua Da G Pa Na Nc Rf pA1 pB1 HA HB r c n m pos fuel ord Hr Hc Hn Ev) as [_ W]. exact (W Fp).
  Qed.
End Meant.
(** A program in several files in which nothing is defined twice or by way of itself, calls have the right number of arguments and are not
    nested in arguments of other calls, and the main module imports the modules whose definitions are used itself: whenever it compiles,
    the meaning of each formula is written. *)
Theorem C80_imports_meant_partial : forall E use_cache kvs args name F m F' text time p whole bound1 bound2,
  compiles E use_cache args name F (Ok m, F') -> no_object F [name] \/ older_object F [name] ->
  sources F [name] = Some (text, time) -> load_source (e_co E) text = Ok p ->
  parse_key_values (co_oracle (e_co E)) kvs [] = Ok args ->
  (forall a, is_order (ev_order (e_sheet E) a)) -> bound1 + bound2 < ev_fuel (e_sheet E) ->
  (* nothing is cached for the imported modules, and none of them imports the main module *)
  (use_cache = true -> forall f, f <> [name] -> no_object F f) ->
  (forall main, load_from_source E F [name] [name] = Ok main ->
     gathers (load_one E F use_cache) main whole /\ seen_by_main (load_one E F use_cache) main whole /\ unambiguous (load_one E F use_cache) main
     /\ forall q r, reachable (load_one E F use_cache) main q r -> filename_relative_to q r <> [name]) ->
  parameters_apart whole -> names_apart (in_one_file p whole) args ->
  good_fills (sheet_rows (pr_sheet p)) -> uncaptured_names (in_one_file p whole) args -> no_circles (in_one_file p whole) args bound1 -> flat_calls (in_one_file p whole) args bound2 ->
  output_rows (in_one_file p whole) (meant (in_one_file p whole) args) (sheet_texts (pr_sheet (m_program m))).
Proof.
  intros E uc kvs args name F m F' text time p whole B1 B2 C No So Ld Kv Or Fu Nob Ga Pa Na G Nc [rv [Rb Rv]] [Fc [Fv [Ff [rf [Rfb Rg]]]]].
  destruct (load_plain _ _ _ Ld) as [_ [Sp Fe]].
  assert (Ua : NoDup (map fst args)) by (eapply key_values_unique; [|exact Kv]; constructor).
  assert (Da : forall x e, assoc x args = Some e -> plain e) by (eapply key_values_plain; [|exact Kv]; intros x e Q2; discriminate Q2).
  destruct (compiled_main _ _ _ _ _ _ _ _ _ _ C No So Ld) as (main & sh & order & ld & F1 & sc2 & Lm & Mp & R & _ & Ed & Mr & Me).
  destruct (Ga _ Lm) as [Gw [[See1 See2] [Un Ne]]]. pose proof (whole_plain E uc name F main whole Lm Nob Ne Gw) as Hd.
  assert (Rf : refines whole sc2).
  { eapply merge_required_refines; [| |exact Mr].
    - eapply (dependencies_refine whole Hd Pa); [|exact Ed]. intros q mq I. destruct (run_loaded _ _ _ _ R q mq I) as [r [Re Lo]].
      eapply (part_refined E uc name F main whole Lm Nob Ne Gw). right. eauto.
    - pose proof (part_refined E uc name F main whole Lm Nob Ne Gw main (or_introl eq_refl)) as X. unfold m_scope in X. rewrite Mp in X. exact X. }
  destruct (merge_required_covers _ _ _ _ Mr) as [Gr Cov].
  assert (Im : forall q mq, In q (m_requires main) -> load_one E F uc q (m_path main) = Ok mq -> exists m', passoc q ld = Some m' /\ HistoryProofs.grows (m_scope mq) (m_scope m') /\ exports (m_scope m') = exports (m_scope mq)).
  { intros q mq Hq Lq. assert (Re : reachable (load_one E F uc) main q (m_path main)) by (apply r_main; exact Hq).
    destruct (C28_every_import_recorded _ _ _ _ _ R q (or_introl Hq)) as [_ [[m1 [r1 [A [_ [B D]]]]]|[e [r1 [A [_ [B D]]]]]]]; pose proof (Un _ _ _ B Re) as X; rewrite D, Lq in X; [|discriminate]. injection X as ->.
    unfold eval_dependencies in Ed. eapply in_order_grows; [exact Ed|exact A]. }
  assert (Ex : forall q mq x, In q (m_requires main) -> load_one E F uc q (m_path main) = Ok mq -> (In x (exports (m_scope mq)) <-> assoc x (variables (m_scope mq)) <> None \/ assoc x (functions (m_scope mq)) <> None)).
  { intros q mq x Hq Lq. destruct (part_source E uc name F main Lm Nob Ne mq) as [t Lt]; [right; exists q, (m_path main); split; [apply r_main; exact Hq|exact Lq]|]. exact (C27_exports _ _ _ x Lt). }
  assert (Rq : m_requires main = pr_required p) by (unfold m_requires; rewrite Mp; reflexivity).
  assert (Sm : m_scope main = pr_scope p) by (unfold m_scope; rewrite Mp; reflexivity).
  assert (Sv : forall x, assoc x (variables whole) <> None -> assoc x (variables sc2) <> None).
  { intros x Hx. destruct (See1 x Hx) as [mx [[->|[q [Hq Lq]]] K]]; [apply (proj1 Gr); rewrite <- Sm; exact K|].
    destruct (Im _ _ Hq Lq) as [m' [A [B D]]]. rewrite Rq in Hq. destruct (Cov q m' Hq A x) as [Z _]; [rewrite D; rewrite <- Rq in Hq; apply (Ex _ _ _ Hq Lq); left; exact K|]. apply Z. apply (proj1 B). exact K. }
  assert (Sf : forall f, assoc f (functions whole) <> None -> assoc f (functions sc2) <> None).
  { intros x Hx. destruct (See2 x Hx) as [mx [[->|[q [Hq Lq]]] K]]; [apply (proj2 Gr); rewrite <- Sm; exact K|].
    destruct (Im _ _ Hq Lq) as [m' [A [B D]]]. rewrite Rq in Hq. destruct (Cov q m' Hq A x) as [_ Z]; [rewrite D; rewrite <- Rq in Hq; apply (Ex _ _ _ Hq Lq); right; exact K|]. apply Z. apply (proj2 B). exact K. }
  set (p0 := in_one_file p whole) in *.
  eapply (from_eval {| pr_scope := sc2; pr_sheet := pr_sheet p; pr_required := pr_required p |} args Fe _ _ _ (meant p0 args) Me).
  intros pB1 i r k x c Mf Hr Hc a. unfold meant. destruct (cell_ast c) as [n|] eqn:Ac; [|reflexivity]. intros n' Ev.
  assert (exists pA1, module_eval_fills p0 = Ok pA1) as [pA1 MA].
  { unfold module_eval_fills in *. cbn [p0 in_one_file pr_sheet] in *. destruct (eval_fills (pr_sheet p)) as [s|]; [eauto|discriminate]. }
  destruct (cell_meant p0 sc2 (pr_required p) args Hd Sp (proj1 Gw) Fe Ua Da G Pa Na Nc Rf B1 B2 rv rf Rb Rv Fc Fv Ff Rfb Rg pA1 pB1 MA Mf Sv Sf r c n a (ev_order (e_sheet E) a) (ev_fuel (e_sheet E))
    (nth_error_In _ _ Hr) (nth_error_In _ _ Hc) Ac (Or _) Fu) as [m0 [M1 [M2 M3]]]. rewrite M3 in Ev. injection Ev as <-. eauto.
Qed.
Print Assumptions C80_imports_meant_partial.
(** ** Non-vacuity: a module with a function and a variable, a main module with a fill *)
Definition ex_lib_source : string := "rate := 20
fn vat(x, each) x * rate + each
---
".
Definition ex_use_source : string := "use lib
price := 3
---
![[fill=2]][[var=n]],""=vat(n, price)"",=n
last,=SUM(n)
".
Definition ex_use_files : fs := ex_files [(["main"%string], ex_use_source, 1); (["lib"%string], ex_lib_source, 1)].
Definition ex_use : program := Eval vm_compute in ex_program (lit ex_use_source).
Definition ex_use_lib : module := match load_one (ex_E 5) ex_use_files true [lit "lib"] [lit "main"] with Ok m => m | _ => PropLoader.ex_main ex_use_files end.
Definition ex_whole : scope := Eval vm_compute in
  let a := pr_scope ex_use in let b := m_scope ex_use_lib in
  {| functions := functions a ++ functions b; variables := variables a ++ variables b; exports := exports a ++ exports b |}.
Definition ex_one : program := in_one_file ex_use ex_whole.
Lemma use_main main : load_from_source (ex_E 5) ex_use_files [lit "main"] [lit "main"] = Ok main -> main = PropLoader.ex_main ex_use_files.
Proof.
  intro Lm. unfold PropLoader.ex_main. assert (X : load_from_cache_from_filename (ex_E 5) ex_use_files [lit "main"] [lit "main"] = load_from_source (ex_E 5) ex_use_files [lit "main"] [lit "main"]) by (apply main_not_clean; left; exact I).
  rewrite X, Lm. reflexivity.
Qed.
Lemma use_reach q r : reachable (load_one (ex_E 5) ex_use_files true) (PropLoader.ex_main ex_use_files) q r -> (q, r) = ([lit "lib"], [lit "main"]).
Proof.
  intro H. assert (X : In (q, r) [([lit "lib"], [lit "main"])]); [|destruct X as [X|[]]; symmetry; exact X]. revert q r H. apply reached.
  - vm_compute. intuition congruence.
  - intros p0 r0 m q [I|[]] L Q. apply pair_equal_spec in I as [<- <-].
    assert (X : ex_use_lib = m) by (unfold ex_use_lib; rewrite L; reflexivity). subst m. revert Q. vm_compute. intuition congruence.
Qed.
Lemma use_parts m : takes_part (load_one (ex_E 5) ex_use_files true) (PropLoader.ex_main ex_use_files) m -> m = PropLoader.ex_main ex_use_files \/ m = ex_use_lib.
Proof.
  intros [->|[q [r [H L]]]]; [left; reflexivity|right]. apply use_reach in H. apply pair_equal_spec in H as [-> ->]. unfold ex_use_lib. rewrite L. reflexivity.
Qed.
Lemma use_lib_loaded : load_one (ex_E 5) ex_use_files true [lit "lib"] (m_path (PropLoader.ex_main ex_use_files)) = Ok ex_use_lib.
Proof. vm_compute. reflexivity. Qed.
Lemma use_lib_part : takes_part (load_one (ex_E 5) ex_use_files true) (PropLoader.ex_main ex_use_files) ex_use_lib.
Proof. right. exists [lit "lib"], (m_path (PropLoader.ex_main ex_use_files)). split; [apply r_main; vm_compute; auto|apply use_lib_loaded]. Qed.
Lemma use_gathers : gathers (load_one (ex_E 5) ex_use_files true) (PropLoader.ex_main ex_use_files) ex_whole.
Proof.
  assert (P : forall m, m = PropLoader.ex_main ex_use_files \/ m = ex_use_lib -> part_of (m_scope m) ex_whole) by (intros m [->| ->]; apply part_check; vm_compute; repeat constructor).
  split; [vm_compute; repeat constructor; vm_compute; intuition congruence|]. split; intros x g; (split; [|intros [m [T A]]; apply use_parts in T; apply (P m T); exact A]).
  - apply (assoc_cases (fun x g => exists m, takes_part (load_one (ex_E 5) ex_use_files true) (PropLoader.ex_main ex_use_files) m /\ assoc x (variables (m_scope m)) = Some g)).
    repeat constructor; [exists (PropLoader.ex_main ex_use_files); split; [left; reflexivity|vm_compute; reflexivity]|exists ex_use_lib; split; [apply use_lib_part|vm_compute; reflexivity]].
  - apply (assoc_cases (fun x g => exists m, takes_part (load_one (ex_E 5) ex_use_files true) (PropLoader.ex_main ex_use_files) m /\ assoc x (functions (m_scope m)) = Some g)).
    repeat constructor. exists ex_use_lib. split; [apply use_lib_part|vm_compute; reflexivity].
Qed.
Lemma use_seen : seen_by_main (load_one (ex_E 5) ex_use_files true) (PropLoader.ex_main ex_use_files) ex_whole.
Proof.
  pose proof use_lib_loaded as L. assert (Q : In [lit "lib"] (m_requires (PropLoader.ex_main ex_use_files))) by (vm_compute; auto). destruct use_gathers as [_ [Gv Gf]]. split; intros x K.
  - destruct (assoc x (variables ex_whole)) as [g|] eqn:A; [|contradiction]. apply Gv in A as [m [T A]]. exists m. split; [|congruence]. apply use_parts in T as [->| ->]; [left; reflexivity|right; exists [lit "lib"]; split; [exact Q|exact L]].
  - destruct (assoc x (functions ex_whole)) as [g|] eqn:A; [|contradiction]. apply Gf in A as [m [T A]]. exists m. split; [|congruence]. apply use_parts in T as [->| ->]; [left; reflexivity|right; exists [lit "lib"]; split; [exact Q|exact L]].
Qed.
Lemma use_values here x v : value_of ex_one [] here x v ->
  (x = lit "price" /\ v = NInt false None 3) \/ (x = lit "rate" /\ v = NInt false None 20) \/ (x = lit "n" /\ exists c r, v = NRef (c :: r) /\ (is_ascii_digit c = true \/ is_ascii_upper c = true)).
Proof.
  intros [nm e H|t f text Hn Hl Hr|e Hn Hb Ha].
  - apply assoc_In in H. vm_compute in H. destruct H as [H|[H|[]]]; inversion H; subst; auto.
  - right. right. destruct Hl as [Hb _]. apply events_binds in Hb. vm_compute in Hb. destruct Hb as [Hb|[]]. injection Hb as <- <- <-. split; [reflexivity|].
    destruct (name_begins _ _ _ _ Hr) as [c [r [-> Hc]]]. eauto.
  - discriminate Ha.
Qed.
Lemma use_functions f ps body nm : assoc f (functions ex_whole) = Some (NFn ps body nm) -> f = lit "vat" /\ ps = [lit "x"; lit "each"]
  /\ body = NInfix (NInfix (NRef (lit "x")) (lit "*") (NRef (lit "rate"))) (lit "+") (NRef (lit "each")).
Proof. intro H. apply assoc_In in H. vm_compute in H. destruct H as [H|[]]. inversion H; subst. auto. Qed.
Lemma use_cells r c n : In r (sheet_rows (pr_sheet ex_one)) -> In c (row_cells r) -> cell_ast c = Some n ->
  n = NRef (lit "n") \/ n = NCall [NRef (lit "n"); NRef (lit "price")] (lit "vat") \/ n = NCall [NRef (lit "n")] (lit "SUM").
Proof.
  intros Hr Hc Ha. vm_compute in Hr. destruct Hr as [<-|[<-|[]]]; vm_compute in Hc.
  - destruct Hc as [<-|[<-|[<-|[]]]]; vm_compute in Ha; try discriminate Ha; inversion Ha; subst; auto.
  - destruct Hc as [<-|[<-|[]]]; vm_compute in Ha; try discriminate Ha; inversion Ha; subst; auto.
Qed.
Lemma use_second x : second_parameter ex_one x -> x = lit "each".
Proof. intros [f [ps [body [nm [H I]]]]]. apply use_functions in H as [_ [-> _]]. destruct I as [<-|[]]. reflexivity. Qed.
Lemma use_parameter x : parameter ex_whole x -> x = lit "x" \/ x = lit "each".
Proof. intros [f [ps [body [nm [H I]]]]]. apply use_functions in H as [_ [-> _]]. destruct I as [<-|[<-|[]]]; auto. Qed.
Definition use_rank (x : str) : nat := if str_eqb x (lit "n") then 1 else 0.
Example C80_imports_nonvacuous : exists m F',
  compiles (ex_E 5) true [] (lit "main") ex_use_files (Ok m, F') /\ no_object ex_use_files [lit "main"]
  /\ sources ex_use_files [lit "main"] = Some (lit ex_use_source, 1) /\ load_source ex_co (lit ex_use_source) = Ok ex_use
  /\ parse_key_values (co_oracle ex_co) [] [] = Ok []
  /\ (forall f, f <> [lit "main"] -> no_object ex_use_files f)
  /\ (forall main, load_from_source (ex_E 5) ex_use_files [lit "main"] [lit "main"] = Ok main ->
       gathers (load_one (ex_E 5) ex_use_files true) main ex_whole /\ seen_by_main (load_one (ex_E 5) ex_use_files true) main ex_whole /\ unambiguous (load_one (ex_E 5) ex_use_files true) main
       /\ forall q r, reachable (load_one (ex_E 5) ex_use_files true) main q r -> filename_relative_to q r <> [lit "main"])
  /\ parameters_apart ex_whole /\ names_apart ex_one []
  /\ good_fills (sheet_rows (pr_sheet ex_use)) /\ uncaptured_names ex_one [] /\ no_circles ex_one [] 2 /\ flat_calls ex_one [] 1
  /\ sheet_texts (pr_sheet (m_program m)) = map (map lit)
     [[""; "=((A1 * 20) + 3)"; "=A1"]; [""; "=((A2 * 20) + 3)"; "=A2"]; ["last"; "=SUM(A1:A2)"]]%string.
Proof.
  set (run := ex_run (ex_E 5) true [] "main" ex_use_files false [["lib"]; ["main"]]%string).
  exists (ex_module run), (files_after run ex_use_files).
  split. { unfold run. apply exec_compile_sound with (n := 100) (last := false) (order := [[lit "lib"]; [lit "main"]]). vm_compute. reflexivity. }
  split; [exact I|]. split; [reflexivity|]. split; [vm_compute; reflexivity|]. split; [reflexivity|]. split; [intros f _; exact I|].
  split.
  { intros main Lm. apply use_main in Lm. subst main. split; [apply use_gathers|]. split; [apply use_seen|]. split.
    - intros q r r' H1 H2. apply use_reach in H1. apply use_reach in H2. congruence.
    - intros q r H. apply use_reach in H. apply pair_equal_spec in H as [-> ->]. vm_compute. discriminate. }
  split.
  { split; [|split].
    - intros q P. apply use_parameter in P as [->| ->]; vm_compute; reflexivity.
    - intros x v y Q Hy _. unfold variable_node in Q. destruct (assoc x (variables ex_whole)) as [g|] eqn:A; [|discriminate]. apply assoc_In in A. vm_compute in A. destruct A as [A|[A|[]]]; inversion A; subst; vm_compute in Q; injection Q as <-; destruct Hy.
    - intros f ps body nm y H Hy Hn P. apply use_functions in H as [_ [-> _]]. apply Hn. apply use_parameter in P as [->| ->]; vm_compute; auto. }
  split.
  { split; [|intros x []]. intros x t f Hb. apply events_binds in Hb. vm_compute in Hb. destruct Hb as [Hb|[]]. injection Hb as _ _ <-. vm_compute. reflexivity. }
  split.
  { intros [|[|[|i]]] r Hr Hf; try discriminate Hr; vm_compute in Hr; injection Hr as <-; [|exfalso; apply Hf; reflexivity]. split; [vm_compute; lia|]. split; [apply Nat.leb_le; vm_compute; reflexivity|]. intros [f [Q A]]. vm_compute in Q. injection Q as <-. discriminate A. }
  split.
  { split; [|split].
    - intros r c n x Hr Hc Ha Hx S2. apply use_second in S2. subst x. destruct (use_cells _ _ _ Hr Hc Ha) as [Qn|[Qn|Qn]]; subst n; vm_compute in Hx; names Hx.
    - intros here y v x W Hx S2. apply use_second in S2. subst x. destruct (use_values _ _ _ W) as [[_ ->]|[[_ ->]|[_ [c [r [-> Hc]]]]]]; cbn in Hx; try (destruct Hx as [Hx|[]]); try contradiction.
      injection Hx as -> ->. vm_compute in Hc. destruct Hc; discriminate.
    - intros f ps body nm x H Hx Hn S2. apply use_second in S2. subst x. apply use_functions in H as [_ [-> _]]. apply Hn. right. left. reflexivity. }
  split.
  { exists use_rank. split; [intro x; unfold use_rank; destruct (str_eqb x _); lia|].
    intros here x v y w W Hy W'. destruct (use_values _ _ _ W) as [[-> ->]|[[-> ->]|[-> [c [r [-> Hc]]]]]]; cbn in Hy; try (destruct Hy as [<-|[]]); try contradiction.
    exfalso. destruct (use_values _ _ _ W') as [[Q _]|[[Q _]|[Q _]]]; injection Q as -> _; vm_compute in Hc; destruct Hc; discriminate. }
  split.
  { split; [|split; [|split]].
    - intros r c n Hr Hc Ha. assert (Q : forall f ps b nm, assoc f (functions (pr_scope ex_one)) = Some (NFn ps b nm) -> length ps = 2) by (intros f ps b nm H; apply use_functions in H as [_ [-> _]]; reflexivity).
      destruct (use_cells _ _ _ Hr Hc Ha) as [Qn|[Qn|Qn]]; subst n; cbn [flat]; [tauto| |].
      + split; [|auto]. intros ps b nm H. apply Q in H. split; [symmetry; exact H|]. repeat constructor; intros f [].
      + split; [|auto]. intros ps b nm H. apply use_functions in H as [H _]. discriminate H.
    - intros here x v W f Hf. destruct (use_values _ _ _ W) as [[_ ->]|[[_ ->]|[_ [c [r [-> _]]]]]]; destruct Hf.
    - intros f ps body nm H. apply use_functions in H as [_ [_ ->]]. cbn. tauto.
    - exists (fun _ => 0). split; [intro; lia|]. intros f ps body nm g H Hg _. apply use_functions in H as [_ [_ ->]]. destruct Hg. }
  vm_compute. reflexivity.
Qed.
