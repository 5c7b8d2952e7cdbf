(** * SameLoad: compiling two versions of a main module; reading files of definitions. *)
From Coq Require Import Permutation.
From Verif Require Import Base BaseProofs Csvp SourceCode SourceCodeProofs Ast AstLexer AstLexerProofs AstProofs AstParser Eval EvalSpec EvalProofs FormulaSpec FormulaText Options CellParser
  Sheet SheetSpec SheetProofs2 SourceSpec CodeSectionSpec CodeSectionProofs Loader LoaderSpec LoaderProofs LoaderProofs2 LoaderProofs3 PropVariables PropLoader PropCache PropTarget PropCompile SameSpec SameProofs CellAlike.


(** ** Another main module that imports the same modules *)
Lemma run_other_main l main main' sh t : m_requires main = m_requires main' -> m_path main = m_path main' -> load_run l main sh t -> load_run l main' sh t.
Proof.
  intros R P [H Fi]. split; [|exact Fi]. inversion H as [c|c c' c'' H1 H2]; subst; [discriminate Fi|]. inversion H1; subst.
  eapply st_step; [apply s_reserve|].
  assert (X : forall c c', steps l c c' -> forall kids, snd c = TJoin None main kids ->
    steps l (fst c, TJoin None main' kids) (fst c', match snd c' with TJoin None _ k => TJoin None main' k | t => t end)).
  { clear. induction 1 as [c|c c1 c2 H1 H2 IH]; intros kids E; [rewrite E; apply st_refl|]. destruct c as [sh t]. cbn [snd] in E. subst t. cbn [fst].
    inversion H1; subst.
    - eapply st_step; [apply s_kid; eassumption|]. apply (IH (a ++ k' :: b) eq_refl).
    - eapply st_step; [apply s_joined; assumption|]. cbn [fst snd] in IH. inversion H2; subst; [apply st_refl|]. inversion H.
    - eapply st_step; [apply s_join_panics; assumption|]. inversion H2; subst; [apply st_refl|]. inversion H. }
  specialize (X _ _ H2 _ eq_refl). cbn [fst snd] in X. unfold new in X. rewrite <- R, <- P. destruct t as [p0 r0|sl m|sl m k|p0 e| | |]; try discriminate Fi; exact X.
Qed.
Definition as_main (E : env) (name : str) (p : program) : module :=
  {| m_version := e_version E; m_path := [name]; m_program := p; m_file := [name]; m_dirty := false; m_needs_eval := true |}.
Lemma load_as_main E F name text time p : no_object F [name] \/ older_object F [name] -> sources F [name] = Some (text, time) -> load_source (e_co E) text = Ok p ->
  load_from_cache_from_filename E F [name] [name] = Ok (as_main E name p).
Proof. intros No So Ld. rewrite main_not_clean by exact No. unfold load_from_source. rewrite So, Ld. reflexivity. Qed.

Lemma leads_other E name p p' : pr_required p = pr_required p' -> forall ld a b, leads_to (as_main E name p) ld a b -> leads_to (as_main E name p') ld a b.
Proof.
  intros R ld a b H. assert (X : forall q, edges (as_main E name p) ld q = edges (as_main E name p') ld q) by (intro q; unfold edges, m_requires; cbn [m_path m_program as_main]; rewrite R; reflexivity).
  induction H as [a b H|a b c H _ IH]; rewrite X in H; [apply l_one; exact H|eapply l_more; eauto].
Qed.
Lemma order_other E name p p' : pr_required p = pr_required p' -> forall ld order, resolution_order (as_main E name p) ld order -> resolution_order (as_main E name p') ld order.
Proof.
  intros R ld order [H1 H2]. unfold resolution_order, graph_nodes, m_requires in *. cbn [m_path m_program as_main] in *. rewrite <- R. split; [exact H1|].
  intros N a x b y c E1 L. apply (leads_other E name p p' R). eapply H2; [exact N|exact E1|]. apply (leads_other E name p' p); [symmetry; exact R|exact L].
Qed.

Lemma load_elsewhere E F F' uc name p : same_elsewhere F F' name -> objects_in_place F -> main_not_imported E F uc name -> load_from_source E F [name] [name] = Ok (as_main E name p) ->
  forall q w, reachable (load_one E F uc) (as_main E name p) q w -> load_one E F uc q w = load_one E F' uc q w.
Proof.
  intros Se Op Nm Lm.
  intros q w Hr. pose proof (Nm _ Lm q w Hr) as Nf. unfold load_one, load_from_cache, load_from_object. destruct (Se _ Nf) as [S1 S2]. destruct uc; [|apply from_source_same; congruence].
  rewrite S2. destruct (objects F (filename_relative_to q w)) as [[[m|] tm]|] eqn:Eo; try (apply from_source_same; congruence).
  unfold check_if_is_dirty. rewrite (Op _ _ _ Eo), S1, S2, Eo. reflexivity.
Qed.
Section Other.
  Variables (E : env) (uc : bool) (args args' : list (str * node)) (name : str) (F F' : fs) (text text' : str) (time time' : nat) (p p' : program).
  Hypothesis No : no_object F [name] \/ older_object F [name].
  Hypothesis No' : no_object F' [name] \/ older_object F' [name].
  Hypothesis So : sources F [name] = Some (text, time).
  Hypothesis So' : sources F' [name] = Some (text', time').
  Hypothesis Ld : load_source (e_co E) text = Ok p.
  Hypothesis Ld' : load_source (e_co E) text' = Ok p'.
  Hypothesis Rq : pr_required p = pr_required p'.
  Hypothesis La : forall q w, reachable (load_one E F uc) (as_main E name p) q w -> load_one E F uc q w = load_one E F' uc q w.
  Hypothesis Sr : forall ld sc, merge_required (pr_required p) ld (pr_scope p) = Some sc ->
    exists sc', merge_required (pr_required p) ld (pr_scope p') = Some sc'
    /\ same_result pr_sheet (main_eval (e_sheet E) (e_sched E) {| pr_scope := sc; pr_sheet := pr_sheet p; pr_required := pr_required p |} args)
         (main_eval (e_sheet E) (e_sched E) {| pr_scope := sc'; pr_sheet := pr_sheet p'; pr_required := pr_required p |} args').
  Lemma merge_required_none : forall req ld sc sc', merge_required req ld sc = None -> merge_required req ld sc' = None.
  Proof.
    induction req as [|q req IH]; intros ld sc sc' H; cbn [merge_required] in *; [discriminate H|]. destruct (passoc q ld); [|reflexivity]. eapply IH. exact H.
  Qed.
  Theorem other_main r : compiles E uc args name F r -> exists r', compiles E uc args' name F' r' /\ same_result module_sheet (fst r) (fst r').
  Proof.
    intro C. pose proof (load_as_main E F name text time p No So Ld) as Lm0. pose proof (load_as_main E F' name text' time' p' No' So' Ld') as Lm'.
    destruct C as [main sh t order Lm R O|e Lm|Lm]; rewrite Lm0 in Lm; try discriminate Lm. assert (Em : main = as_main E name p) by congruence. subst main. clear Lm Lm0.
    assert (Rm : m_requires (as_main E name p) = m_requires (as_main E name p')) by exact Rq.
    eexists. split.
    - eapply c_run; [exact Lm'| |].
      + apply (run_other_main _ (as_main E name p)); [exact Rm|reflexivity|]. eapply run_agree; [|exact R].
        exact La.
      + apply (order_other E name p p' Rq). exact O.
    - unfold compile_with. destruct (panicked t); [exact I|]. unfold load_main.
      assert (Ad : any_dirty (as_main E name p') (loaded sh) = any_dirty (as_main E name p) (loaded sh)).
      { unfold any_dirty, graph_nodes, edges, m_requires. cbn [m_path as_main m_program]. rewrite Rq. reflexivity. }
      rewrite Ad. clear Ad. destruct (any_dirty (as_main E name p) (loaded sh)); [exact I|].
      unfold eval_dependencies. pose proof (eval_in_order_fs E uc order (loaded sh) (map (fun pm => (fst pm, m_scope (snd pm))) (loaded sh)) F F') as X.
      destruct (eval_in_order E uc order (loaded sh) _ F) as [r F1]. destruct (eval_in_order E uc order (loaded sh) _ F') as [r' F2]. cbn [fst] in X. subst r'.
      destruct r as [ld|e| |]; try exact I; [|cbn [fst same_result]; reflexivity].
      unfold merge_direct_dependencies. destruct (failed sh); [|cbn [fst same_result]; reflexivity].
      change (m_requires (as_main E name p)) with (pr_required p). change (m_requires (as_main E name p')) with (pr_required p'). rewrite <- Rq.
      change (m_scope (as_main E name p)) with (pr_scope p). change (m_scope (as_main E name p')) with (pr_scope p').
      destruct (merge_required (pr_required p) ld (pr_scope p)) as [sc|] eqn:Mr; [|rewrite (merge_required_none _ _ _ (pr_scope p') Mr); exact I].
      destruct (Sr _ _ Mr) as [sc' [-> Res]].
      unfold finish. cbn [m_needs_eval with_flags with_scope as_main m_program pr_sheet pr_required m_file m_dirty]. rewrite <- Rq.
      destruct (main_eval (e_sheet E) (e_sched E) _ args) as [q|e| |], (main_eval (e_sheet E) (e_sched E) _ args') as [q'|e'| |]; cbn [same_result] in Res; try contradiction; try exact I.
      + destruct uc; [|exact Res]. unfold write_object. cbn [m_file with_flags with_program with_scope as_main].
        destruct (e_writable E [name]); [exact Res|]. cbn [fst same_result]. reflexivity.
      + cbn [fst same_result]. f_equal. exact Res.
  Qed.
End Other.

(** merging into scopes that mean the same *)
Definition same_scope (sc sc' : scope) : Prop :=
  (forall x, assoc x (variables sc') = assoc x (variables sc)) /\ (forall f, assoc f (functions sc') = assoc f (functions sc)).
Lemma merge_required_same : forall req ld sc sc' s, same_scope sc sc' -> unique_keys sc -> unique_keys sc' -> merge_required req ld sc = Some s ->
  exists s', merge_required req ld sc' = Some s' /\ same_scope s s' /\ unique_keys s /\ unique_keys s'.
Proof.
  induction req as [|q req IH]; intros ld sc sc' s Ss U U' H; cbn [merge_required] in *; [injection H as <-; eauto|].
  destruct (passoc q ld) as [m|]; [|discriminate H]. eapply IH; [| | |exact H].
  - unfold scope_merge. split; intro x.
    + rewrite (proj1 (scope_merge_spec (m_scope m) (exports (m_scope m)) sc' x)), (proj1 (scope_merge_spec (m_scope m) (exports (m_scope m)) sc x)), (proj1 Ss). reflexivity.
    + rewrite (proj1 (proj2 (scope_merge_spec (m_scope m) (exports (m_scope m)) sc' x))), (proj1 (proj2 (scope_merge_spec (m_scope m) (exports (m_scope m)) sc x))), (proj2 Ss). reflexivity.
  - apply scope_merge_unique. exact U.
  - apply scope_merge_unique. exact U'.
Qed.

(** ** Files *)
Lemma lines_ok_item o i : item_ok o i -> is_separator_line (item_text i) = false.
Proof.
  assert (X : forall c s, is_ws c = false -> (c =? c_minus)%N = false -> is_separator_line (c :: s) = false).
  { intros c s H1 H2. unfold is_separator_line. assert (T : trim_start (c :: s) = c :: s) by (unfold trim_start; cbn; rewrite H1; reflexivity). rewrite T.
    cbn [dashes strip_prefix]. rewrite N.eqb_sym in H2. rewrite H2. reflexivity. }
  assert (Y : forall s r, ident (o_unicode o) s = true -> is_separator_line (s ++ r) = false).
  { intros s r Hs. pose proof (ident_nows (o_unicode o) s Hs) as W. destruct (ident_parts _ s Hs) as [c [b [d [-> [Hb _]]]]].
    cbn [app forallb] in *. apply andb_prop in W as [W _]. apply negb_true_iff in W. apply andb_prop in Hb as [Hb _]. apply X; [exact W|].
    destruct (N.eqb_spec c c_minus); [subst c; vm_compute in Hb; discriminate Hb|reflexivity]. }
  destruct i as [m|n e|n ps b]; cbn [item_ok item_text]; intro H.
  - apply X; reflexivity.
  - apply Y. apply H.
  - apply X; reflexivity.
Qed.
Lemma join_reads o l : Forall (item_ok o) l -> uses_first l ->
  code_section_parse o (join [c_nl] (map item_text l)) = Ok (fold_left item_scope l empty_scope, concat (map item_modules l)).
Proof.
  intros Hok Hu. unfold code_section_parse.
  assert (Hl : lexes (o_unicode o) (join [c_nl] (map item_text l)) (concat (map item_toks l))).
  { clear Hu. induction Hok as [|i l Hi Hl IH]; [apply lx_end; reflexivity|]. cbn [map concat]. destruct l as [|j l].
    - cbn [map join concat]. rewrite <- (app_nil_r (item_text i)). apply lexes_item; [exact Hi|reflexivity|]. apply lx_end. reflexivity.
    - change (join [c_nl] (item_text i :: map item_text (j :: l))) with (item_text i ++ [c_nl] ++ join [c_nl] (map item_text (j :: l))).
      apply lexes_item; [exact Hi|reflexivity|]. apply lexes_nl. exact IH. }
  assert (Hf : formula_text (join [c_nl] (map item_text l)) = join [c_nl] (map item_text l)).
  { unfold formula_text. assert (Q : strip_prefix [c_eq] (join [c_nl] (map item_text l)) = None); [|rewrite Q; reflexivity].
    destruct Hok as [|i l Hi Hl']; [reflexivity|].
    assert (Q : strip_prefix [c_eq] (section_text [i]) = None) by (apply (section_no_eq o); constructor; [exact Hi|constructor]). cbn [section_text] in Q.
    cbn [map]. destruct (item_text i) as [|c s] eqn:Ei; [destruct i as [m|n e|n ps b]; cbn [item_text] in Ei; try discriminate Ei; destruct n; [destruct Hi as [[Hi _] _]; discriminate Hi|discriminate Ei]|].
    assert (G : forall r, strip_prefix [c_eq] (c :: r) = None -> forall r', strip_prefix [c_eq] (c :: r') = None).
    { intros r. cbn [strip_prefix]. destruct (c_eq =? c)%N; [discriminate|reflexivity]. }
    destruct l as [|j l]; cbn [map join]; eapply G; cbn [app] in Q; exact Q. }
  rewrite <- Hf in Hl at 1.
  destruct (ast_lex_complete _ _ _ Hl) as [lx [E1 E2]]. rewrite E1, E2. rewrite parse_scope_items; auto.
Qed.
Lemma file_source o l rows : Forall (item_ok o) l -> Forall (fun i => file_line (item_text i)) l -> Forall file_line rows ->
  let src := source_code_new (file_of l rows) in
  code_section src = Some (join [c_nl] (map item_text l)) /\ csv_section src = join [c_nl] rows /\ length_of_code_section src = S (length l).
Proof.
  intros Hi Hl Hr src.
  assert (Lo : lines_of (file_of l rows) = map item_text l ++ lit "---" :: rows).
  { unfold file_of. rewrite lines_of_unlines; [reflexivity|]. rewrite !forallb_app. cbn [forallb app].
    assert (X : forall ls, Forall file_line ls -> forallb line_ok ls = true).
    { induction 1 as [|s ls [H1 H2] _ IH]; [reflexivity|]. cbn [forallb]. rewrite IH. unfold line_ok. rewrite H1, H2. reflexivity. }
    rewrite (X rows Hr), (X (map item_text l)); [reflexivity|]. apply Forall_map. exact Hl. }
  destruct (split_found (file_of l rows) (map item_text l) (lit "---") rows Lo) as [H1 [H2 [H3 _]]].
  - clear -Hi. induction Hi as [|i l H _ IH]; [reflexivity|]. cbn [map forallb]. rewrite (lines_ok_item o i H). exact IH.
  - reflexivity.
  - rewrite map_length in H3. auto.
Qed.

(** ** One main module, no imports *)
Lemma no_imports_one E uc args name F text time p r r' : no_object F [name] \/ older_object F [name] -> sources F [name] = Some (text, time) ->
  load_source (e_co E) text = Ok p -> pr_required p = [] -> compiles E uc args name F r -> compiles E uc args name F r' -> r = r'.
Proof.
  intros No So Ld Rq C C'. pose proof (load_as_main E F name text time p No So Ld) as Lm.
  destruct C as [m sh t order L1 R1 O1|e L1|L1]; rewrite Lm in L1; try discriminate L1. assert (E1 : m = as_main E name p) by congruence. subst m.
  destruct C' as [m sh' t' order' L2 R2 O2|e L2|L2]; rewrite Lm in L2; try discriminate L2. assert (E2 : m = as_main E name p) by congruence. subst m.
  rewrite !compile_no_imports by (try assumption; exact Rq). reflexivity.
Qed.
Lemma no_imports_reach E l name p q w : pr_required p = [] -> reachable l (as_main E name p) q w -> False.
Proof.
  intros Rq H. assert (X : m_requires (as_main E name p) = []) by exact Rq. induction H as [q H|q r m p0 _ IH _ _]; [rewrite X in H; destruct H|exact IH].
Qed.

(** ** Definitions *)
Definition agree_but (kv kf : str -> Prop) (sc sc' : scope) : Prop :=
  (forall x, kv x -> assoc x (variables sc') = assoc x (variables sc)) /\ (forall f, kf f -> assoc f (functions sc') = assoc f (functions sc)).
Lemma item_scope_agree kv kf i sc sc' : agree_but kv kf sc sc' -> agree_but kv kf (item_scope sc i) (item_scope sc' i).
Proof.
  intros [H1 H2]. destruct i as [m|n e|n ps b]; cbn [item_scope]; [split; assumption|split|split]; unfold define_variable, define_function; cbn [variables functions]; intros x K; auto;
    (destruct (str_eqb_spec n x) as [->|Ne]; [rewrite !assoc_insert_same; reflexivity|rewrite !assoc_insert_other by congruence; auto]).
Qed.
Lemma items_agree kv kf : forall l sc sc', agree_but kv kf sc sc' -> agree_but kv kf (fold_left item_scope l sc) (fold_left item_scope l sc').
Proof. induction l as [|i l IH]; intros sc sc' H; cbn [fold_left]; [exact H|]. apply IH. apply item_scope_agree. exact H. Qed.
Lemma items_variable : forall l sc x, NoDup (map item_key l) ->
  (forall e, In (IVar x e) l -> assoc x (variables (fold_left item_scope l sc)) = Some (NVar x (VAst (canonical e))))
  /\ ((forall e, ~ In (IVar x e) l) -> assoc x (variables (fold_left item_scope l sc)) = assoc x (variables sc)).
Proof.
  induction l as [|i l IH]; intros sc x N; cbn [fold_left]; [split; [intros e []|reflexivity]|]. cbn [map] in N. apply NoDup_cons_iff in N as [N1 N2].
  destruct (IH (item_scope sc i) x N2) as [I1 I2]. split.
  - intros e [->|H]; [|apply I1; exact H]. rewrite I2.
    + cbn [item_scope define_variable variables]. apply assoc_insert_same.
    + intros e' H. apply N1. apply in_map_iff. exists (IVar x e'). auto.
  - intro H. rewrite I2 by (intros e He; apply (H e); right; exact He). destruct i as [m|n e|n ps b]; cbn [item_scope define_variable define_function variables]; try reflexivity.
    apply assoc_insert_other. intros <-. apply (H e). left. reflexivity.
Qed.
Lemma items_function : forall l sc x, NoDup (map item_key l) ->
  (forall ps b, In (IFn x ps b) l -> assoc x (functions (fold_left item_scope l sc)) = Some (NFn ps (canonical b) x))
  /\ ((forall ps b, ~ In (IFn x ps b) l) -> assoc x (functions (fold_left item_scope l sc)) = assoc x (functions sc)).
Proof.
  induction l as [|i l IH]; intros sc x N; cbn [fold_left]; [split; [intros ps b []|reflexivity]|]. cbn [map] in N. apply NoDup_cons_iff in N as [N1 N2].
  destruct (IH (item_scope sc i) x N2) as [I1 I2]. split.
  - intros ps b [->|H]; [|apply I1; exact H]. rewrite I2.
    + cbn [item_scope define_function functions]. apply assoc_insert_same.
    + intros ps' b' H. apply N1. apply in_map_iff. exists (IFn x ps' b'). auto.
  - intro H. rewrite I2 by (intros ps b He; apply (H ps b); right; exact He). destruct i as [m|n e|n ps b]; cbn [item_scope define_variable define_function functions]; try reflexivity.
    apply assoc_insert_other. intros <-. apply (H ps b). left. reflexivity.
Qed.
Lemma items_permuted l l' : NoDup (map item_key (definitions l)) -> Permutation l l' -> same_scope (fold_left item_scope l empty_scope) (fold_left item_scope l' empty_scope).
Proof.
  assert (Fi : forall l sc, fold_left item_scope l sc = fold_left item_scope (filter (fun i => negb (is_use i)) l) sc).
  { clear. induction l as [|i l IH]; intro sc; cbn [fold_left filter]; [reflexivity|]. destruct i; cbn [is_use negb item_scope fold_left]; apply IH. }
  unfold definitions. intros N P. rewrite (Fi l), (Fi l'). set (k := filter _ l) in *. set (k' := filter _ l').
  assert (P' : Permutation k k') by (unfold k, k'; clear -P; induction P as [|i l l' _ IH|i j l|l1 l2 l3 _ IH1 _ IH2]; cbn [filter]; [constructor| | |eapply perm_trans; eassumption];
    [destruct (negb (is_use i)); [apply perm_skip|]; exact IH|destruct (negb (is_use i)), (negb (is_use j)); try apply perm_swap; apply Permutation_refl]).
  assert (N' : NoDup (map item_key k')) by (eapply Permutation_NoDup; [apply Permutation_map; exact P'|exact N]).
  split; intro x.
  - destruct (items_variable k empty_scope x N) as [A1 A2], (items_variable k' empty_scope x N') as [B1 B2].
    destruct (existsb (fun i => match i with IVar y _ => str_eqb y x | _ => false end) k) eqn:Ex.
    + apply existsb_exists in Ex as [i [Hi Ei]]. destruct i as [|y e|]; try discriminate Ei. destruct (str_eqb_spec y x); [subst y|discriminate Ei].
      rewrite (A1 e Hi), (B1 e); [reflexivity|]. eapply Permutation_in; eassumption.
    + assert (Q : forall e, ~ In (IVar x e) k).
      { intros e H. assert (Z : existsb (fun i => match i with IVar y _ => str_eqb y x | _ => false end) k = true); [|congruence]. apply existsb_exists. exists (IVar x e). split; [exact H|]. destruct (str_eqb_spec x x); congruence. }
      rewrite A2, B2; [reflexivity| |exact Q]. intros e H. apply (Q e). eapply Permutation_in; [apply Permutation_sym; exact P'|exact H].
  - destruct (items_function k empty_scope x N) as [A1 A2], (items_function k' empty_scope x N') as [B1 B2].
    destruct (existsb (fun i => match i with IFn y _ _ => str_eqb y x | _ => false end) k) eqn:Ex.
    + apply existsb_exists in Ex as [i [Hi Ei]]. destruct i as [| |y ps b]; try discriminate Ei. destruct (str_eqb_spec y x); [subst y|discriminate Ei].
      rewrite (A1 ps b Hi), (B1 ps b); [reflexivity|]. eapply Permutation_in; eassumption.
    + assert (Q : forall ps b, ~ In (IFn x ps b) k).
      { intros ps b H. assert (Z : existsb (fun i => match i with IFn y _ _ => str_eqb y x | _ => false end) k = true); [|congruence]. apply existsb_exists. exists (IFn x ps b). split; [exact H|]. destruct (str_eqb_spec x x); congruence. }
      rewrite A2, B2; [reflexivity| |exact Q]. intros ps b H. apply (Q ps b). eapply Permutation_in; [apply Permutation_sym; exact P'|exact H].
Qed.
Lemma load_file co l rows p : Forall (item_ok (co_oracle co)) l -> uses_first l -> Forall (fun i => file_line (item_text i)) l -> Forall file_line rows ->
  load_source co (file_of l rows) = Ok p ->
  pr_scope p = fold_left item_scope l empty_scope /\ pr_required p = concat (map item_modules l) /\ sheet_parse co (source_code_new (file_of l rows)) = Ok (pr_sheet p).
Proof.
  intros H1 H2 H3 H4 Ld. destruct (file_source (co_oracle co) l rows H1 H3 H4) as [S1 [S2 S3]]. unfold load_source in Ld. cbv zeta in Ld. rewrite S1, join_reads in Ld by assumption. cbn [bind] in Ld.
  destruct (sheet_parse co (source_code_new (file_of l rows))); try discriminate Ld. cbn [bind] in Ld. injection Ld as <-. auto.
Qed.
Lemma load_file_again co l l' rows p : Forall (item_ok (co_oracle co)) l -> uses_first l -> Forall (fun i => file_line (item_text i)) l -> Forall file_line rows ->
  Forall (item_ok (co_oracle co)) l' -> uses_first l' -> Forall (fun i => file_line (item_text i)) l' ->
  load_source co (file_of l rows) = Ok p ->
  exists p', load_source co (file_of l' rows) = Ok p' /\ pr_scope p' = fold_left item_scope l' empty_scope /\ pr_required p' = concat (map item_modules l') /\ alike_sheet (pr_sheet p) (pr_sheet p').
Proof.
  intros H1 H2 H3 H4 H1' H2' H3' Ld. destruct (load_file co l rows p H1 H2 H3 H4 Ld) as [_ [_ Sp]].
  destruct (file_source (co_oracle co) l rows H1 H3 H4) as [_ [S2 _]]. destruct (file_source (co_oracle co) l' rows H1' H3' H4) as [S1' [S2' _]].
  destruct (sheet_parse_alike co _ (source_code_new (file_of l' rows)) _ (eq_trans S2 (eq_sym S2')) Sp) as [s' [Sp' A]].
  eexists. unfold load_source. cbv zeta. rewrite S1', join_reads by assumption. cbn [bind]. rewrite Sp'. cbn [bind]. split; [reflexivity|]. auto.
Qed.
