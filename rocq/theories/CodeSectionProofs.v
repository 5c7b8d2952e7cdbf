(** * CodeSectionProofs: the code section parser. *)
From Verif Require Import Base BaseProofs Csvp Ast AstProofs AstLexer AstParser FormulaSpec CodeSectionSpec
  AstParserProofs AstLexerProofs FormulaProofs FormulaText FormulaInv.

(** ** Totality *)
Lemma fn_params_shrinks : forall ts acc ps r, fn_params ts acc = Ok (ps, r) -> length r < length ts.
Proof.
  induction ts as [|[t s] ts IH]; intros acc ps r H; [discriminate|].
  destruct t; simpl in H; try discriminate; simpl.
  - inversion H; subst. lia.
  - apply IH in H. lia.
  - apply IH in H. lia.
Qed.
Lemma fn_params_total : forall ts acc, (exists x, fn_params ts acc = Ok x) \/ (exists e, fn_params ts acc = Err e).
Proof.
  induction ts as [|[t s] ts IH]; intros acc; simpl; [right; eexists; reflexivity|].
  destruct t; auto; try (right; eexists; reflexivity). left. eexists. reflexivity.
Qed.
Lemma section_expr_total o ts : (exists e r, section_expr o ts = Ok (e, r) /\ length r < length ts)
  \/ (exists e, section_expr o ts = Err e).
Proof.
  unfold section_expr.
  pose proof (proj1 (parser_total o true (parser_fuel ts)) 0 ts) as F. unfold parser_fuel in F at 1.
  specialize (F ltac:(lia)).
  destruct (expr_bp (parser_fuel ts) o true 0 ts) as [[e r]| | |] eqn:E; simpl in F; try contradiction.
  - left. exists e, r. split; [reflexivity|].
    apply (proj1 (parser_sound o true _)) in E as [used [Ets [_ Hne]]].
    subst ts. rewrite app_length. destruct used; [congruence|simpl; lia].
  - right. eexists. reflexivity.
Qed.

Lemma parse_scope_total o : forall fuel ts sc req, length ts < fuel ->
  (exists x, parse_scope fuel o ts sc req = Ok x) \/ (exists e, parse_scope fuel o ts sc req = Err e).
Proof.
  induction fuel as [|fuel IH]; intros ts sc req Hf; [lia|]. cbn [parse_scope].
  destruct ts as [|[t s] ts]; [left; eexists; reflexivity|]. simpl in Hf.
  destruct t; try (right; eexists; reflexivity).
  - (* fn *) unfold parse_fn_definition.
    destruct ts as [|[t2 s2] ts2]; [right; eexists; reflexivity|].
    destruct t2; try (right; eexists; reflexivity).
    destruct ts2 as [|[t3 s3] ts3]; [right; eexists; reflexivity|].
    destruct t3; try (right; eexists; reflexivity).
    destruct (fn_params_total ts3 []) as [[[ps r] E]|[e E]]; rewrite E; simpl; [|right; eexists; reflexivity].
    apply fn_params_shrinks in E.
    destruct (section_expr_total o r) as [[b [r2 [E2 L]]]|[e E2]]; rewrite E2; simpl; [|right; eexists; reflexivity].
    apply IH. simpl in *. lia.
  - (* variable *) unfold parse_variable_assign.
    destruct ts as [|[t2 s2] ts2]; [right; eexists; reflexivity|].
    destruct t2; try (right; eexists; reflexivity).
    destruct (section_expr_total o ts2) as [[b [r2 [E2 L]]]|[e E2]]; rewrite E2; simpl; [|right; eexists; reflexivity].
    apply IH. simpl in *. lia.
  - (* use *) apply IH. destruct ts; simpl in *; lia.
Qed.

Theorem section_total o s : cuttable s -> (exists r, code_section_parse o s = Ok r) \/ (exists e, code_section_parse o s = Err e).
Proof.
  intro Hc. unfold code_section_parse.
  destruct (ast_lex_total (o_unicode o) s) as [[lx ->]|[e E]].
  2: { rewrite E. right. apply ast_lex_unknown in E as [a ->]. apply unknown_error_total. eapply cuttable_tail; eauto. }
  destruct (parse_scope_total o (S (length (erase (lx_tokens lx)))) (erase (lx_tokens lx)) empty_scope []) as [[x ->]|[e ->]].
  - lia.
  - left. eexists. reflexivity.
  - right. eexists. reflexivity.
Qed.

(** ** A code section defines what it says *)
Definition param_toks (ps : list str) : list tok := sep_toks (map (fun p => [(TReference, p)]) ps).
Definition item_toks (i : item) : list tok :=
  match i with
  | IUse m => [(TUseModule, lit "use"); (TReference, m)]
  | IVar n e => (TReference, n) :: (TVarAssign, lit ":=") :: toks_of e
  | IFn n ps b => (TFunctionDefinition, lit "fn") :: (TReference, n) :: (TOpenParen, lit "(") ::
                  param_toks ps ++ (TCloseParen, lit ")") :: toks_of b
  end.

Lemma lexes_nl u s ts : lexes u s ts -> lexes u (c_nl :: s) ts.
Proof.
  intro H. change ts with (emit TNewline [c_nl] ts).
  eapply lx_tok with (ws := []); [reflexivity|apply first_match_nl|exact H].
Qed.
Lemma lexes_use u s ts : lexes u s ts -> lexes u (lit "use" ++ s) ((TUseModule, lit "use") :: ts).
Proof.
  intro H. change (lit "use") with (trim (lit "use")) at 2.
  change (lit "use" ++ s) with (117%N :: (lit "se" ++ s)).
  eapply lexes_token; try discriminate; [reflexivity|reflexivity|exact H].
Qed.
Lemma lexes_assign u s ts : lexes u s ts -> lexes u (lit ":=" ++ s) ((TVarAssign, lit ":=") :: ts).
Proof.
  intro H. change (lit ":=") with (trim (lit ":=")) at 2.
  change (lit ":=" ++ s) with (58%N :: (lit "=" ++ s)).
  eapply lexes_token; try discriminate; [reflexivity|reflexivity|exact H].
Qed.
Lemma lexes_fn u c s ts : is_ws c = false -> lexes u (c :: s) ts ->
  lexes u (lit "fn " ++ c :: s) ((TFunctionDefinition, lit "fn") :: ts).
Proof.
  intros Hc H. change (lit "fn") with (trim (lit "fn ")).
  change (lit "fn " ++ c :: s) with (102%N :: (lit "n " ++ c :: s)).
  eapply lexes_token; try discriminate; [reflexivity| |exact H].
  unfold matchers_ordered. cbn [first_match].
  change (102%N :: lit "n " ++ c :: s) with (lit "fn" ++ c_space :: c :: s).
  unfold m_fn. rewrite strip_prefix_app.
  replace (span is_ws (c_space :: c :: s)) with ([c_space], c :: s); [reflexivity|].
  symmetry. apply (span_app is_ws [c_space] (c :: s)); [reflexivity|exact Hc].
Qed.

Lemma lexes_params u ps : Forall (name_ok u) ps -> forall rest ts, delim rest = true -> lexes u rest ts ->
  lexes u (join (lit ", ") ps ++ rest) (param_toks ps ++ ts).
Proof.
  unfold param_toks. induction 1 as [|p ps [Hi Hn] Hps IH]; intros rest ts Hd Hl; [exact Hl|].
  destruct ps as [|q ps].
  - simpl. apply lexes_ident; assumption.
  - change (join (lit ", ") (p :: q :: ps)) with (p ++ lit ", " ++ join (lit ", ") (q :: ps)).
    rewrite <- !app_assoc.
    change (sep_toks (map (fun p : list N => [(TReference, p)]) (p :: q :: ps)) ++ ts)
      with ((TReference, p) :: (TComma, lit ",") :: (sep_toks (map (fun p : list N => [(TReference, p)]) (q :: ps)) ++ ts)).
    apply lexes_ident; auto.
    change (lit ", " ++ ?x) with (c_comma :: c_space :: x).
    apply lexes_comma. apply lexes_space. apply IH; assumption.
Qed.

Lemma lexes_item o i : item_ok o i -> forall rest ts, delim rest = true -> lexes (o_unicode o) rest ts ->
  lexes (o_unicode o) (item_text i ++ rest) (item_toks i ++ ts).
Proof.
  set (u := o_unicode o). intros Hi rest ts Hd Hl. destruct i as [m|n e|n ps b]; cbn [item_text item_toks item_ok] in *.
  - destruct Hi as [Hi Hn]. rewrite <- app_assoc.
    change (lit "use " ++ m ++ rest) with (lit "use" ++ c_space :: (m ++ rest)).
    apply lexes_use. apply lexes_space. apply lexes_ident; assumption.
  - destruct Hi as [[Hi Hn] He]. rewrite <- !app_assoc.
    apply lexes_ident; auto.
    change (lit " := " ++ show e ++ rest) with (c_space :: lit ":=" ++ c_space :: (show e ++ rest)).
    apply lexes_space. apply lexes_assign. apply lexes_space. apply lexes_show; assumption.
  - destruct Hi as [[Hi Hn] [Hps Hb]]. rewrite <- !app_assoc.
    assert (Hc : exists c r, n = c :: r /\ is_ws c = false).
    { destruct n as [|c r]; [discriminate|]. exists c, r. split; [reflexivity|].
      pose proof (ident_nows u (c :: r) Hi) as X. simpl in X.
      apply andb_prop in X as [X _]. apply negb_true_iff in X. exact X. }
    destruct Hc as [c [r [En Hc]]]. rewrite En at 1. simpl app at 2.
    apply lexes_fn; [exact Hc|]. change (c :: r ++ ?x) with ((c :: r) ++ x). rewrite <- En.
    apply lexes_ident; auto.
    change (lit "(" ++ ?x) with (c_lparen :: x).
    apply lexes_open. change ((fix app (l m : list (token * list N)) {struct l} := match l with [] => m | a :: l1 => a :: app l1 m end) ?x ?y) with (x ++ y). rewrite <- app_assoc. apply lexes_params; [exact Hps|reflexivity|].
    change (lit ") " ++ show b ++ rest) with (c_rparen :: c_space :: (show b ++ rest)).
    apply lexes_close. apply lexes_space. apply lexes_show; assumption.
Qed.

Lemma lexes_section o l : Forall (item_ok o) l ->
  lexes (o_unicode o) (section_text l) (concat (map item_toks l)).
Proof.
  induction 1 as [|i l Hi Hl IH]; simpl; [apply lx_end; reflexivity|].
  apply lexes_item; [exact Hi|reflexivity|]. apply lexes_nl. exact IH.
Qed.

(** *** parsing the tokens *)
Lemma fn_params_reads : forall ps acc rest,
  fn_params (param_toks ps ++ (TCloseParen, lit ")") :: rest) acc = Ok (rev acc ++ ps, rest).
Proof.
  unfold param_toks. induction ps as [|p ps IH]; intros acc rest.
  - simpl. rewrite app_nil_r. reflexivity.
  - destruct ps as [|q ps].
    + simpl. reflexivity.
    + change (sep_toks (map (fun p : list N => [(TReference, p)]) (p :: q :: ps)) ++ ?y)
        with ((TReference, p) :: (TComma, lit ",") :: (sep_toks (map (fun p : list N => [(TReference, p)]) (q :: ps)) ++ y)).
      cbn [fn_params]. rewrite IH. simpl rev. rewrite <- app_assoc. reflexivity.
Qed.
Lemma section_expr_reads o e rest : printable o e -> stop_tok true (fst (peek rest)) = true ->
  section_expr o (toks_of e ++ rest) = Ok (canonical e, rest).
Proof.
  intros He Hs. unfold section_expr. apply runs_expr_fuel.
  apply read_back; [exact He|lia|left; exact Hs|]. apply st_stop. exact Hs.
Qed.

Definition no_use (l : list item) : Prop := forallb (fun j => negb (is_use j)) l = true.
Lemma no_use_stop l : no_use l -> stop_tok true (fst (peek (concat (map item_toks l)))) = true.
Proof. destruct l as [|[m|n e|n ps b] l]; unfold no_use; simpl; intro H; try discriminate; reflexivity. Qed.
Lemma uses_first_tail i l : uses_first (i :: l) -> uses_first l /\ (is_use i = false -> no_use l).
Proof.
  simpl. destruct (is_use i) eqn:E; intro H.
  - split; [exact H|discriminate].
  - split; [|auto]. destruct l as [|j l]; [exact I|]. simpl in *.
    apply andb_prop in H as [H1 H2]. apply negb_true_iff in H1. rewrite H1. exact H2.
Qed.

Lemma parse_scope_items o : forall l fuel sc req, Forall (item_ok o) l -> uses_first l ->
  length (concat (map item_toks l)) < fuel ->
  parse_scope fuel o (concat (map item_toks l)) sc req
  = Ok (fold_left item_scope l sc, req ++ concat (map item_modules l)).
Proof.
  induction l as [|i l IH]; intros fuel sc req Hok Hu Hf; (destruct fuel as [|fuel]; [lia|]).
  - simpl. rewrite app_nil_r. reflexivity.
  - apply Forall_cons_iff in Hok as [Hi Hok]. destruct (uses_first_tail _ _ Hu) as [Hu' Hn].
    cbn [map concat] in *. rewrite app_length in Hf.
    destruct i as [m|n e|n ps b]; cbn [item_toks] in *.
    + cbn [app] in *. cbn [parse_scope tl peek snd]. rewrite IH; auto; [|simpl in Hf; lia].
      cbn [fold_left item_scope item_modules map concat app]. rewrite <- app_assoc. do 2 f_equal.
      destruct Hi as [Hid _]. unfold module_path_of_token. f_equal. f_equal.
      destruct (ident_parts _ m Hid) as [c [b [d [Em [Hb [Hd _]]]]]].
      assert (Hall : forall x, In x m -> (x =? c_slash)%N = false).
      { intros x Hx. rewrite Em in Hx. apply in_app_or in Hx as [Hx|Hx].
        - rewrite forallb_forall in Hb. apply Hb in Hx. destruct (N.eqb_spec x c_slash); [subst; discriminate|reflexivity].
        - destruct Hd as [-> | ->]; [contradiction|]. destruct Hx as [<-|[]]. reflexivity. }
      assert (Hsplit : forall x, (forall y, In y x -> (y =? c_slash)%N = false) -> split_on c_slash x = [x]).
      { induction x as [|y x IHx]; intro Hy; [reflexivity|]. simpl. rewrite Hy by (left; reflexivity).
        rewrite IHx by (intros; apply Hy; right; assumption). reflexivity. }
      rewrite Hsplit by exact Hall. reflexivity.
    + cbn [app] in *. cbn [parse_scope parse_variable_assign]. destruct Hi as [_ He].
      rewrite section_expr_reads; [|exact He|apply no_use_stop; apply Hn; reflexivity].
      cbn [bind]. rewrite IH; auto. simpl in Hf. lia.
    + cbn [app] in *. rewrite <- app_assoc. cbn [app].
      cbn [parse_scope parse_fn_definition]. destruct Hi as [_ [_ Hb]].
      rewrite fn_params_reads. cbn [bind rev app].
      rewrite section_expr_reads; [|exact Hb|apply no_use_stop; apply Hn; reflexivity].
      cbn [bind]. rewrite IH; auto. simpl in Hf. lia.
Qed.

Lemma section_no_eq o l : Forall (item_ok o) l -> strip_prefix [c_eq] (section_text l) = None.
Proof.
  intro H. destruct H as [|i l Hi Hl]; [reflexivity|]. cbn [section_text].
  assert (Hid : forall s x, ident (o_unicode o) s = true -> strip_prefix [c_eq] (s ++ x) = None).
  { intros s x Hs. destruct (ident_parts _ s Hs) as [c [b [d [-> [Hb _]]]]]. simpl.
    simpl in Hb. apply andb_prop in Hb as [Hb _].
    change (strip_prefix [c_eq] (c :: (b ++ d) ++ x) = None).
    apply strip_eq_none. intros ->. discriminate. }
  destruct i as [m|n e|n ps b]; cbn [item_text item_ok] in *.
  - reflexivity.
  - rewrite <- app_assoc. apply Hid. apply Hi.
  - reflexivity.
Qed.

Theorem section_reads o l : Forall (item_ok o) l -> uses_first l ->
  code_section_parse o (section_text l)
  = Ok (fold_left item_scope l empty_scope, concat (map item_modules l)).
Proof.
  intros Hok Hu. unfold code_section_parse.
  pose proof (lexes_section o l Hok) as Hl.
  assert (Hf : formula_text (section_text l) = section_text l).
  { unfold formula_text. rewrite (section_no_eq o l Hok). reflexivity. }
  rewrite <- Hf in Hl.
  destruct (ast_lex_complete _ _ _ Hl) as [lx [E1 E2]]. rewrite E1, E2.
  rewrite parse_scope_items; auto.
Qed.
