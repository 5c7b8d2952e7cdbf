(** * PropGrammar: formulas and code sections are accepted exactly as the grammar of GrammarSpec.v says (C92, and C49 in one more way). *)
From Verif Require Import Base BaseProofs Csvp Ast AstLexer AstParser FormulaSpec AstParserProofs AstLexerProofs FormulaInv FormulaText GrammarSpec GrammarProofs SpacingSpec SpacingProofs PropFormula.

Lemma runs_E o code m ts res : E o code m ts res -> expr_bp (parser_fuel ts) o code m ts = Ok res.
Proof. intros [f H]. apply runs_expr_fuel. exists f. split; [exact H|discriminate]. Qed.
Lemma formula_runs o code ts n rest : formula o code ts n -> stop_tok code (fst (peek rest)) = true -> expr_bp (parser_fuel (ts ++ rest)) o code 0 (ts ++ rest) = Ok (n, rest).
Proof.
  intros F St. apply runs_E. destruct (grammar_complete o code) as [_ [_ [_ [_ [C _]]]]]. assert (Hh : forall m, halts code m rest) by (intro m; left; exact St).
  apply (C 1 ts n F 0 rest); [lia|lia|apply Hh|apply L_halts; apply Hh].
Qed.
Lemma runs_formula o code ts n rest : Forall lexer_tok ts -> expr_bp (parser_fuel ts) o code 0 ts = Ok (n, rest) ->
  exists used, ts = used ++ rest /\ formula o code used n /\ stop_tok code (fst (peek rest)) = true.
Proof. intros F H. destruct (proj1 (grammar_sound o code _) 0 (Some 1) ts n rest (pw_start) F H) as [used [Q [Rd Hl]]]. exists used. split; [exact Q|]. split; [exact Rd|apply halts_zero in Hl; exact Hl]. Qed.
Lemma lexed_ok u s lx : ast_lex u s = Ok lx -> Forall lexer_tok (erase (lx_tokens lx)).
Proof. intro H. eapply Forall_impl; [|exact (lexes_ok _ _ _ (ast_lex_sound _ _ _ H))]. intro t. apply tok_ok_lexer. Qed.
Lemma unknown_error_not {A} u (a : A) : unknown_error u <> Ok a.
Proof. unfold unknown_error. cbv zeta. destruct (utf8_len (ut_input u) <=? 50); [discriminate|]. destruct (byte_split 50 (ut_input u)) as [[x y]|]; discriminate. Qed.

(** C92: the tokens of a formula up to a stray closing parenthesis or comma, if there is one, are a formula of the grammar; this is exactly
    when it is accepted, and the result is the tree the grammar gives. *)
Theorem C92_formula : forall o s n, ast_parse o false s = Ok n <->
  exists lx used rest, ast_lex (o_unicode o) s = Ok lx /\ erase (lx_tokens lx) = used ++ rest /\ formula o false used n
    /\ (rest = [] \/ begins TComma rest \/ begins TCloseParen rest).
Proof.
  intros o s n. unfold ast_parse. split.
  - destruct (ast_lex (o_unicode o) s) as [lx|u| |] eqn:Lx; try discriminate; [|intro H; exfalso; eapply unknown_error_not; exact H]. cbv zeta.
    destruct (expr_bp (parser_fuel (erase (lx_tokens lx))) o false 0 (erase (lx_tokens lx))) as [[e rest]| | |] eqn:Q; cbn [bind locate]; intro H; try discriminate H. injection H as ->.
    destruct (runs_formula o false _ _ _ (lexed_ok _ _ _ Lx) Q) as [used [Tk [F St]]]. exists lx, used, rest. repeat split; auto.
    pose proof (lexed_ok _ _ _ Lx) as Ft. rewrite Tk in Ft. apply Forall_app in Ft as [_ Ft].
    destruct rest as [|[t x] rest]; [left; reflexivity|right]. apply Forall_cons_iff in Ft as [Fh _]. destruct t; try discriminate St; [right; do 2 eexists; reflexivity|left; do 2 eexists; reflexivity|contradiction].
  - intros [lx [used [rest [Lx [Tk [F En]]]]]]. rewrite Lx. cbv zeta. rewrite Tk.
    rewrite (formula_runs o false used n rest F) by (destruct En as [->|[[x [r ->]]|[x [r ->]]]]; reflexivity). reflexivity.
Qed.
Print Assumptions C92_formula.

(** C92: a sequence of tokens has one reading at most, and a formula ends at one place only. *)
Theorem C92_one_reading : forall o code ts n n', formula o code ts n -> formula o code ts n' -> n = n'.
Proof.
  intros o code ts n n' F F'. pose proof (formula_runs o code ts n [] F eq_refl) as H. rewrite (formula_runs o code ts n' [] F' eq_refl) in H. injection H as ->. reflexivity.
Qed.
Print Assumptions C92_one_reading.
Lemma one_end o ts n rest ts' n' rest' : formula o true ts n -> after_definition rest -> formula o true ts' n' -> after_definition rest' -> ts ++ rest = ts' ++ rest' -> n = n' /\ rest = rest'.
Proof.
  assert (St : forall r, after_definition r -> stop_tok true (fst (peek r)) = true) by (intros r [->|[[s [q ->]]|[s [q ->]]]]; reflexivity).
  intros F A F' A' Q. pose proof (formula_runs o true ts n rest F (St _ A)) as H. rewrite Q, (formula_runs o true ts' n' rest' F' (St _ A')) in H. injection H as -> ->. auto.
Qed.
Lemma params_end ps params b rest : parameters ps params -> forall acc, fn_params (ps ++ (TCloseParen, b) :: rest) acc = Ok (rev acc ++ params, rest).
Proof.
  induction 1 as [|s ts ps _ IH|s ts ps _ IH]; intro acc; cbn [app fn_params]; [rewrite app_nil_r; reflexivity|apply IH|]. rewrite IH. cbn [rev]. rewrite <- app_assoc. reflexivity.
Qed.
Lemma params_inv ts : forall acc params rest, fn_params ts acc = Ok (params, rest) -> exists ps b ps', ts = ps ++ (TCloseParen, b) :: rest /\ params = rev acc ++ ps' /\ parameters ps ps'.
Proof.
  induction ts as [|[t s] ts IH]; intros acc params rest H; [discriminate H|]. destruct t; try discriminate H; cbn [fn_params] in H.
  - injection H as <- <-. exists [], s, []. rewrite app_nil_r. repeat split. constructor.
  - destruct (IH _ _ _ H) as [ps [b [ps' [-> [-> P]]]]]. exists ((TComma, s) :: ps), b, ps'. repeat split. constructor. exact P.
  - destruct (IH _ _ _ H) as [ps [b [ps' [-> [-> P]]]]]. exists ((TReference, s) :: ps), b, (s :: ps'). split; [reflexivity|]. split; [cbn [rev]; rewrite <- app_assoc; reflexivity|constructor; exact P].
Qed.
Lemma scope_sound o : forall f ts sc req sc' req', Forall lexer_tok ts -> parse_scope f o ts sc req = Ok (sc', req') ->
  exists l, section_of o ts l /\ sc' = fold_left defines l sc /\ req' = req ++ concat (map imports l).
Proof.
  assert (Next : forall f ts sc req r, Forall lexer_tok ts -> parse_scope f o ts sc req = Ok r -> stop_tok true (fst (peek ts)) = true -> after_definition ts).
  { intros f ts sc req r Ft H St. destruct ts as [|[t s] ts]; [left; reflexivity|]. apply Forall_cons_iff in Ft as [Fh _]. destruct f; [discriminate H|]. right. cbn [parse_scope] in H. destruct t; try discriminate St; try discriminate H; try contradiction; [right|left]; do 2 eexists; reflexivity. }
  induction f as [|f IH]; intros ts sc req sc' req' Ft H; [discriminate H|]. cbn [parse_scope] in H.
  destruct ts as [|[t s] ts]; [injection H as <- <-; exists []; rewrite app_nil_r; repeat split; constructor|]. apply Forall_cons_iff in Ft as [Fh Ft].
  destruct t; try discriminate H.
  - destruct ts as [|[[] f0] [|[[] p] ts]]; cbn [parse_fn_definition bind] in H; try discriminate H.
    apply Forall_cons_iff in Ft as [_ Ft]. apply Forall_cons_iff in Ft as [_ Ft].
    destruct (fn_params ts []) as [[params r2]| | |] eqn:Q; cbn [bind] in H; try discriminate H. destruct (params_inv _ _ _ _ Q) as [ps [b [ps' [-> [-> P]]]]]. cbn [rev app] in H.
    apply Forall_app in Ft as [_ Ft]. apply Forall_cons_iff in Ft as [_ Ft].
    destruct (section_expr o r2) as [[body r3]| | |] eqn:Q2; cbn [bind] in H; try discriminate H. destruct (runs_formula o true r2 body r3 Ft Q2) as [es [-> [F St]]]. apply Forall_app in Ft as [_ Ft].
    pose proof (Next _ _ _ _ _ Ft H St) as Af. destruct (IH _ _ _ _ _ Ft H) as [l [Sl [-> ->]]]. exists (SFn f0 ps' body :: l). split; [|auto]. apply so_fn; assumption.
  - cbn [parse_variable_assign] in H. destruct ts as [|[[] a] ts]; cbn [parse_variable_assign bind] in H; try discriminate H. apply Forall_cons_iff in Ft as [_ Ft].
    destruct (section_expr o ts) as [[e r1]| | |] eqn:Q2; cbn [bind] in H; try discriminate H. destruct (runs_formula o true ts e r1 Ft Q2) as [es [-> [F St]]]. apply Forall_app in Ft as [_ Ft].
    pose proof (Next _ _ _ _ _ Ft H St) as Af. destruct (IH _ _ _ _ _ Ft H) as [l [Sl [-> ->]]]. exists (SVar s e :: l). split; [|auto]. apply so_var; assumption.
  - destruct ts as [|[t x] ts]; cbn [tl peek snd] in H.
    + destruct f; [discriminate H|]. cbn [parse_scope] in H. injection H as <- <-. exists [SUse []]. split; [apply so_use_nothing|]. split; [reflexivity|]. reflexivity.
    + apply Forall_cons_iff in Ft as [_ Ft]. destruct (IH _ _ _ _ _ Ft H) as [l [Sl [-> ->]]]. exists (SUse x :: l). split; [apply so_use; exact Sl|]. split; [reflexivity|]. rewrite <- app_assoc. reflexivity.
Qed.
Lemma scope_complete o ts l : section_of o ts l -> forall f sc req, length ts < f -> parse_scope f o ts sc req = Ok (fold_left defines l sc, req ++ concat (map imports l)).
Proof.
  assert (St : forall r, after_definition r -> stop_tok true (fst (peek r)) = true) by (intros r [->|[[s [q ->]]|[s [q ->]]]]; reflexivity).
  induction 1 as [|a t s ts l _ IH|a|x a es ts e l F Af _ IH|a f0 p b ps es ts params body l P F Af _ IH]; intros f sc req Lf; (destruct f as [|f]; [lia|]); cbn [parse_scope].
  - rewrite app_nil_r. reflexivity.
  - cbn [tl peek snd fold_left defines map imports concat]. rewrite IH by (cbn [length] in Lf; lia). rewrite <- app_assoc. reflexivity.
  - cbn [tl peek snd]. destruct f; [cbn [length] in Lf; lia|]. reflexivity.
  - cbn [parse_variable_assign]. unfold section_expr. rewrite (formula_runs o true es e ts F (St _ Af)). cbn [bind]. rewrite IH by (cbn [length] in Lf; rewrite app_length in Lf; lia). reflexivity.
  - cbn [parse_fn_definition]. rewrite (params_end ps params b (es ++ ts) P []). cbn [bind rev app]. unfold section_expr. rewrite (formula_runs o true es body ts F (St _ Af)). cbn [bind].
    rewrite IH by (cbn [length] in Lf; rewrite !app_length in Lf; cbn [length] in Lf; rewrite app_length in Lf; lia). reflexivity.
Qed.
(** C92, C49: a code section is accepted exactly if its tokens are imports followed by definitions, all of it, and it defines and imports
    what these say. *)
Theorem C92_code_section : forall o s sc req, code_section_parse o s = Ok (sc, req) <->
  exists lx l, ast_lex (o_unicode o) s = Ok lx /\ section_of o (erase (lx_tokens lx)) l /\ sc = fold_left defines l empty_scope /\ req = concat (map imports l).
Proof.
  intros o s sc req. unfold code_section_parse. split.
  - destruct (ast_lex (o_unicode o) s) as [lx|u| |] eqn:Lx; try discriminate; [|intro H; exfalso; eapply unknown_error_not; exact H]. cbv zeta. intro H.
    destruct (parse_scope _ o (erase (lx_tokens lx)) empty_scope []) as [[sc' req']| | |] eqn:Q; cbn [locate] in H; try discriminate H. injection H as -> ->.
    destruct (scope_sound o _ _ _ _ _ _ (lexed_ok _ _ _ Lx) Q) as [l [Sl [-> ->]]]. exists lx, l. auto.
  - intros [lx [l [Lx [Sl [-> ->]]]]]. rewrite Lx. cbv zeta. rewrite (scope_complete o _ _ Sl) by lia. reflexivity.
Qed.
Print Assumptions C92_code_section.
(** C92: a code section can be understood in one way only. *)
Theorem C92_one_section : forall o ts l l', section_of o ts l -> section_of o ts l' -> l = l'.
Proof.
  intros o ts l l' H. revert l'. induction H as [|a t s ts l _ IH|a|x a es ts e l F Af _ IH|a f0 p b ps es ts params body l P F Af _ IH]; intros l' H'.
  - inversion H'. reflexivity.
  - inversion H'; subst. f_equal. auto.
  - inversion H'. reflexivity.
  - inversion H' as [| | |? ? ? ? ? ? F' Af' Sl Q|]; subst. destruct (one_end o _ _ _ _ _ _ F Af F' Af') as [-> ->]; [congruence|]. f_equal. auto.
  - inversion H' as [| | | |? ? ? b' ps' es' ts' params' body' l'' P' F' Af' Sl Q]; subst.
    pose proof (params_end ps params b (es ++ ts) P []) as R. pose proof (params_end ps' params' b' (es' ++ ts') P' []) as R'. match goal with Q : ps' ++ _ = ps ++ _ |- _ => rewrite <- Q in R end. rewrite R in R'. injection R' as -> R'.
    destruct (one_end o _ _ _ _ _ _ F Af F' Af' R') as [-> ->]. f_equal. auto.
Qed.
Print Assumptions C92_one_section.

(** C92 for texts in words (C89): which words make up an accepted formula or code section. *)
Definition word_begins (w : word) (ws : list word) : Prop := exists r, ws = w :: r.
Theorem C92_words : forall o ws text n, spells (o_unicode o) ws text ->
  ast_parse o false (c_eq :: text) = Ok n <->
  exists used rest, ws = used ++ rest /\ formula o false (map word_tok used) n /\ (rest = [] \/ word_begins WComma rest \/ word_begins WClose rest).
Proof.
  intros o ws text n Sp. apply spells_read in Sp. destruct (ast_lex_complete (o_unicode o) (c_eq :: text) _ Sp) as [lx [E1 E2]]. rewrite C92_formula. split.
  - intros [lx' [used [rest [Lx [Tk [F En]]]]]]. rewrite E1 in Lx. injection Lx as <-. rewrite E2 in Tk. apply map_eq_app in Tk as [u [r [-> [<- <-]]]]. exists u, r. split; [reflexivity|]. split; [exact F|].
    destruct r as [|w r]; [left; reflexivity|right]. destruct En as [En|[[x [q En]]|[x [q En]]]]; [discriminate En| |]; injection En as En _; [left|right]; exists r; destruct w; try discriminate En; reflexivity.
  - intros [u [r [-> [F En]]]]. exists lx, (map word_tok u), (map word_tok r). split; [exact E1|]. split; [rewrite E2, map_app; reflexivity|]. split; [exact F|].
    destruct En as [->|[[q ->]|[q ->]]]; [left; reflexivity|right; left|right; right]; do 2 eexists; reflexivity.
Qed.
Print Assumptions C92_words.
Theorem C92_section_words : forall o ws text sc req, spells (o_unicode o) ws text -> begins_with (fun c => c =? c_eq)%N text = false ->
  code_section_parse o text = Ok (sc, req) <->
  exists l, section_of o (map word_tok ws) l /\ sc = fold_left defines l empty_scope /\ req = concat (map imports l).
Proof.
  intros o ws text sc req Sp Nq. apply spells_read in Sp.
  assert (Ft : formula_text text = text).
  { destruct text as [|c t]; [reflexivity|]. cbn [begins_with] in Nq. unfold formula_text. rewrite strip_eq_none; [reflexivity|]. apply N.eqb_neq. exact Nq. }
  rewrite <- Ft in Sp. destruct (ast_lex_complete (o_unicode o) text _ Sp) as [lx [E1 E2]]. rewrite C92_code_section. split.
  - intros [lx' [l [Lx H]]]. rewrite E1 in Lx. injection Lx as <-. rewrite E2 in H. exists l. exact H.
  - intros [l H]. exists lx, l. rewrite E2. auto.
Qed.
Print Assumptions C92_section_words.

(** ** Examples *)
Definition ex_tokens (s : string) : list tok := match ast_lex (o_unicode ex_oracle) (lit s) with Ok lx => erase (lx_tokens lx) | _ => [] end.
(** a formula of every tier, and its only tree *)
Definition ex_formula_tokens : list tok := Eval vm_compute in ex_tokens "=-(5)% ^ 2 * f(a,, ""b"") - 1 - x <= (TRUE & y)".
Definition ex_formula_tree : node := Eval vm_compute in match ast_parse ex_oracle false (lit "=-(5)% ^ 2 * f(a,, ""b"") - 1 - x <= (TRUE & y)") with Ok n => n | _ => NBool true end.
Example C92_nonvacuous : formula ex_oracle false ex_formula_tokens ex_formula_tree
  /\ ast_parse ex_oracle false (lit "=-(5)% ^ 2 * f(a,, ""b"") - 1 - x <= (TRUE & y)") = Ok ex_formula_tree
  /\ match ex_formula_tree with NInfix (NInfix (NInfix (NInfix (NInt true (Some Negative) 5) _ _) _ (NCall [_; _] _)) _ (NInfix (NInt false None 1) _ (NRef _))) _ (NInfix _ _ _) => True | _ => False end.
Proof.
  split; [|split; [vm_compute; reflexivity|exact I]].
  destruct (runs_formula ex_oracle false ex_formula_tokens ex_formula_tree []) as [used [Q [F _]]].
  - assert (Lx : exists lx, ast_lex (o_unicode ex_oracle) (lit "=-(5)% ^ 2 * f(a,, ""b"") - 1 - x <= (TRUE & y)") = Ok lx /\ erase (lx_tokens lx) = ex_formula_tokens) by (eexists; split; vm_compute; reflexivity).
    destruct Lx as [lx [Lx <-]]. eapply lexed_ok. exact Lx.
  - vm_compute. reflexivity.
  - rewrite app_nil_r in Q. subst used. exact F.
Qed.
Print Assumptions C92_nonvacuous.
(** a code section; and what else is in the language: no comma is needed before a name in a code section, but it is in a cell, and an import
    takes whatever word follows, or none *)
Example C92_section_nonvacuous :
  (exists sc, code_section_parse ex_oracle (lit "use lib" ++ [c_nl] ++ lit "rate := f(1 + a b, 2) fn g(x,,y) x ^ y") = Ok (sc, [[lit "lib"]])
     /\ variables sc = [(lit "rate", NVar (lit "rate") (VAst (NCall [NInfix (NInt false None 1) (lit "+") (NRef (lit "a")); NRef (lit "b"); NInt false None 2] (lit "f"))))]
     /\ functions sc = [(lit "g", NFn [lit "x"; lit "y"] (NInfix (NRef (lit "x")) (lit "^") (NRef (lit "y"))) (lit "g"))])
  /\ (exists e, ast_parse ex_oracle false (lit "=f(1 + a b, 2)") = Err e)
  /\ code_section_parse ex_oracle (lit "use ( use") = Ok (empty_scope, [[lit "("]; [[]]])
  /\ (exists e, code_section_parse ex_oracle (lit "a := 1 use lib") = Err e).
Proof.
  split; [eexists; split; [vm_compute; reflexivity|split; reflexivity]|]. split; [eexists; vm_compute; reflexivity|]. split; [vm_compute; reflexivity|eexists; vm_compute; reflexivity].
Qed.
Print Assumptions C92_section_nonvacuous.
