(** * Properties C10-C15, C48-C50: the formula language and the code section. *)
From Verif Require Import Base BaseProofs Csvp Ast AstProofs AstLexer AstParser FormulaSpec CodeSectionSpec
  AstParserProofs AstLexerProofs FormulaProofs FormulaText FormulaInv LexTiling CodeSectionProofs.

(** An oracle for the examples: no character beyond ASCII is a word character, and a float text
    prints without the zeros that end its fraction. *)
Definition strip_zeros (s : str) : str :=
  rev ((fix go l := match l with c :: r => if (c =? 48)%N then go r else l | [] => [] end) (rev s)).
Definition ex_canon (s : str) : option str :=
  match split_once c_dot s with
  | Some (a, b) =>
      match strip_zeros b with
      | [] => Some (dec (digits_value a))
      | b' => Some (dec (digits_value a) ++ c_dot :: b')
      end
  | None => Some (dec (digits_value s))
  end.
Definition ex_oracle : oracle :=
  {| o_unicode := {| u_word := fun _ => false; u_digit := fun _ => false; u_alnum := fun _ => false |};
     f64_canon := ex_canon |}.

(** ** C10 *)
(** The full property: printing what the parser returned and parsing it again gives the same tree.
    [canonical] makes precise in which way the tree may differ (booleans become names, floats
    without a fraction become integers); [tame] excludes what cannot be read back at all. *)
Theorem C10_formula_round_trip_partial : forall o sg s n,
  f64_ok o -> ast_parse o sg s = Ok n -> tame n ->
  ast_parse o sg (show n) = Ok (canonical n)
  /\ ast_parse o sg (c_eq :: show n) = Ok (canonical n)
  /\ show (canonical n) = show n.
Proof. exact round_trip. Qed.
Print Assumptions C10_formula_round_trip_partial.
Example C10_nonvacuous :
  let s := lit "=foo(1.5, -2%, ""x y"") * (B2 <= true & bar())" in
  exists n, ast_parse ex_oracle false s = Ok n /\ tame n
  /\ show n = lit "(foo(1.5, -2%, ""x y"") * (B2 <= (TRUE & bar())))".
Proof.
  eexists. split; [vm_compute; reflexivity|]. split; [|vm_compute; reflexivity].
  repeat split; try discriminate. intros k Hk. exfalso.
  apply (f_equal all_digits) in Hk. rewrite dec_all_digits in Hk. discriminate.
Qed.
(** a second print is stable: compiling the output of the compiler changes nothing more *)
Theorem C10_second_round_trip : forall o sg n, printable o n -> f64_ok o ->
  exists n', ast_parse o sg (show n) = Ok n' /\ show n' = show n.
Proof.
  intros o sg n Hp _. exists (canonical n). split; [apply (parse_show o sg n Hp)|eapply show_canonical; eauto].
Qed.
Print Assumptions C10_second_round_trip.
(** the same tree does not always come back: a boolean comes back as a name *)
Theorem C10_same_tree_refuted : exists o s n,
  ast_parse o false s = Ok n /\ ast_parse o false (show n) = Ok (NRef (lit "TRUE")) /\ n = NBool true.
Proof. exists ex_oracle, (lit "=true"), (NBool true). repeat split; vm_compute; reflexivity. Qed.
Print Assumptions C10_same_tree_refuted.
(** outside [tame], the emitted formula can be unreadable *)
Theorem C10_unreadable_output_refuted : exists o s n e,
  ast_parse o false s = Ok n /\ ast_parse o false (show n) = Err e.
Proof.
  exists ex_oracle, (lit "=""a""""b"" & 1"), (NInfix (NText (lit "a""b")) (lit "&") (NInt false None 1)).
  eexists. split; vm_compute; reflexivity.
Qed.
Print Assumptions C10_unreadable_output_refuted.

(** ** C11, C12 *)
(** Every chain of operands and infix operators, written without parentheses, is parsed with the
    operators of higher precedence inside; operands in parentheses are kept as units. *)
Theorem C11_precedence : forall o sg c,
  chain_ok o c -> right_grouped c -> ast_parse o sg (chain_text c) = Ok (chain_tree c).
Proof. exact parse_chain. Qed.
Print Assumptions C11_precedence.
(** The documented table, from tightest to loosest. *)
Theorem C11_precedence_table :
  infix_class (lit "^") = Some 15 /\ infix_class (lit "*") = Some 14 /\ infix_class (lit "/") = Some 14
  /\ infix_class (lit "+") = Some 13 /\ infix_class (lit "-") = Some 13 /\ infix_class (lit "&") = Some 12
  /\ Forall (fun op => infix_class (lit op) = Some 11) ["="; "<"; ">"; "<="; ">="; "<>"]%string.
Proof. repeat (split; [reflexivity|]). repeat constructor. Qed.
Print Assumptions C11_precedence_table.
(** Two operators of different precedence, any operands, either order; and parentheses override. *)
Theorem C11_two_operators : forall o sg a b c tight loose p q,
  printable o a -> printable o b -> printable o c -> In tight infix_ops -> In loose infix_ops ->
  infix_class tight = Some p -> infix_class loose = Some q -> q < p ->
  let sp x op y := x ++ [c_space] ++ op ++ [c_space] ++ y in
  ast_parse o sg (sp (show a) loose (sp (show b) tight (show c)))
    = Ok (NInfix (canonical a) loose (NInfix (canonical b) tight (canonical c)))
  /\ ast_parse o sg (sp (sp (show a) tight (show b)) loose (show c))
    = Ok (NInfix (NInfix (canonical a) tight (canonical b)) loose (canonical c))
  /\ ast_parse o sg (sp (lit "(" ++ sp (show a) loose (show b) ++ lit ")") tight (show c))
    = Ok (NInfix (NInfix (canonical a) loose (canonical b)) tight (canonical c)).
Proof.
  intros o sg a b c tight loose p q Ha Hb Hc Ht Hl Hp Hq Hlt sp.
  destruct (infix_ops_class tight Ht) as [p' [Hp' Rp]]. rewrite Hp in Hp'. inversion Hp'; subst p'.
  destruct (infix_ops_class loose Hl) as [q' [Hq' Rq]]. rewrite Hq in Hq'. inversion Hq'; subst q'.
  split; [|split].
  - apply (parse_chain o sg (Chain (Operand a) loose (Chain (Operand b) tight (Operand c)))).
    + simpl. auto.
    + simpl. rewrite Hp, Hq. repeat split; auto; lia.
  - apply (parse_chain o sg (Chain (Chain (Operand a) tight (Operand b)) loose (Operand c))).
    + simpl. auto.
    + simpl. rewrite Hp, Hq. repeat split; auto; lia.
  - pose proof (parse_chain o sg (Chain (Operand (NInfix a loose b)) tight (Operand c))) as X.
    cbn [chain_text chain_tree show] in X. rewrite <- !app_assoc in X. unfold sp. rewrite <- !app_assoc.
    apply X.
    + simpl. split; [constructor|]; auto.
    + simpl. rewrite Hp. repeat split; auto; lia.
Qed.
Print Assumptions C11_two_operators.
Example C11_nonvacuous : ast_parse ex_oracle false (lit "1 + 2 * B3 ^ 2 & ""x""")
  = Ok (NInfix (NInfix (NInt false None 1) (lit "+")
          (NInfix (NInt false None 2) (lit "*") (NInfix (NRef (lit "B3")) (lit "^") (NInt false None 2))))
        (lit "&") (NText (lit "x"))).
Proof. vm_compute. reflexivity. Qed.

(** C12 would be: [forall c, chain_ok o c -> left_grouped c -> ast_parse o sg (chain_text c) =
    Ok (chain_tree c)]. It fails for all operands whenever two operators of one class meet. *)
Theorem C12_left_grouping_refuted : forall o sg a b c op op',
  printable o a -> printable o b -> printable o c -> In op infix_ops -> In op' infix_ops ->
  infix_class op = infix_class op' ->
  let ch := Chain (Chain (Operand a) op (Operand b)) op' (Operand c) in
  left_grouped ch
  /\ ast_parse o sg (chain_text ch)
     = Ok (NInfix (canonical a) op (NInfix (canonical b) op' (canonical c)))
  /\ NInfix (canonical a) op (NInfix (canonical b) op' (canonical c)) <> chain_tree ch.
Proof.
  intros o sg a b c op op' Ha Hb Hc Hop Hop' E.
  destruct (infix_ops_class op Hop) as [p [Hp Rp]]. rewrite Hp in E. symmetry in E.
  split; [|split].
  - simpl. rewrite Hp, E. repeat split; auto; lia.
  - assert (Et : chain_text (Chain (Chain (Operand a) op (Operand b)) op' (Operand c))
                 = chain_text (Chain (Operand a) op (Chain (Operand b) op' (Operand c))))
      by (cbn [chain_text]; rewrite <- !app_assoc; reflexivity).
    cbv zeta. rewrite Et. apply parse_chain; [simpl; auto|].
    simpl. rewrite Hp, E. repeat split; auto; lia.
  - intro X. inversion X as [[X1 X2 X3]].
    assert (H : forall x y op, NInfix x op y <> x).
    { induction x; try discriminate. intros y op0 Hx. inversion Hx; subst. eapply IHx1; eauto. }
    symmetry in X1. eapply H; eauto.
Qed.
Print Assumptions C12_left_grouping_refuted.
(** the value changes: 1 - 1 - 1 is -1, the emitted formula (1 - (1 - 1)) is 1 *)
Theorem C12_value_refuted : exists o n,
  let one := Operand (NInt false None 1) in
  let ch := Chain (Chain one (lit "-") one) (lit "-") one in
  chain_text ch = lit "1 - 1 - 1" /\ left_grouped ch
  /\ ast_parse o false (chain_text ch) = Ok n
  /\ show n = lit "(1 - (1 - 1))"
  /\ num_value (chain_tree ch) = Some (-1)%Z /\ num_value n = Some 1%Z.
Proof.
  exists ex_oracle. eexists. cbv zeta.
  split; [reflexivity|]. split; [simpl; repeat split; auto 10; lia|].
  split; [vm_compute; reflexivity|]. repeat split; vm_compute; reflexivity.
Qed.
Print Assumptions C12_value_refuted.
(** What holds: where no two operators of one class meet, left grouping is what the parser does. *)
Fixpoint strictly_grouped (c : chain) : Prop :=
  match c with
  | Operand _ => True
  | Chain l op r => strictly_grouped l /\ strictly_grouped r /\ In op infix_ops
                    /\ top_class (Chain l op r) < top_class l /\ top_class (Chain l op r) < top_class r
  end.
Theorem C12_distinct_precedence_partial : forall o sg c,
  chain_ok o c -> strictly_grouped c ->
  left_grouped c /\ ast_parse o sg (chain_text c) = Ok (chain_tree c).
Proof.
  intros o sg c Hok Hs.
  assert (H : left_grouped c /\ right_grouped c).
  { clear Hok. induction c as [n|l IHl op r IHr]; simpl in *; [auto|].
    destruct Hs as [H1 [H2 [H3 [H4 H5]]]]. destruct (IHl H1), (IHr H2). repeat split; auto; lia. }
  split; [tauto|]. apply parse_chain; tauto.
Qed.
Print Assumptions C12_distinct_precedence_partial.

(** ** C13 *)
(** A successful parse reads a prefix of the tokens as an expression of the grammar, and stops
    only at the end of the formula, at a comma or at a closing parenthesis. *)
Theorem C13_prefix_partial : forall o s n, ast_parse o false s = Ok n ->
  exists lx used rest,
    ast_lex (o_unicode o) s = Ok lx /\ erase (lx_tokens lx) = used ++ rest
    /\ expr_of o used n
    /\ (rest = [] \/ (exists x r, rest = (TComma, x) :: r) \/ (exists x r, rest = (TCloseParen, x) :: r)).
Proof.
  intros o s n H. destruct (parse_inv o false s n H) as [lx [used [rest [E1 [E2 [Hd [Hs Hf]]]]]]].
  exists lx, used, rest. repeat split; auto.
  apply Forall_app in Hf as [_ Hf].
  destruct rest as [|[t x] r]; [auto|]. apply Forall_cons_iff in Hf as [Hx _].
  right. simpl in Hs. destruct t; try discriminate; [right; eauto|left; eauto|contradiction].
Qed.
Print Assumptions C13_prefix_partial.
(** When every comma and closing parenthesis is inside parentheses, nothing is left over. *)
Theorem C13_balanced_formula_is_read_whole_partial : forall o s n lx,
  ast_parse o false s = Ok n -> ast_lex (o_unicode o) s = Ok lx ->
  closed_at 0 (erase (lx_tokens lx)) = true -> expr_of o (erase (lx_tokens lx)) n.
Proof. exact balanced_whole. Qed.
Print Assumptions C13_balanced_formula_is_read_whole_partial.
Example C13_nonvacuous : exists n lx, let s := lit "=IF(a > 1, f(), (-2))" in
  ast_parse ex_oracle false s = Ok n /\ ast_lex (o_unicode ex_oracle) s = Ok lx
  /\ closed_at 0 (erase (lx_tokens lx)) = true /\ length (lx_tokens lx) = 15.
Proof. do 2 eexists. cbv zeta. repeat split; vm_compute; reflexivity. Qed.
Theorem C13_trailing_text_dropped_refuted : exists o n,
  ast_parse o false (lit "=1) + garbage(") = Ok n /\ show n = lit "1".
Proof. exists ex_oracle. eexists. split; vm_compute; reflexivity. Qed.
Print Assumptions C13_trailing_text_dropped_refuted.
Theorem C13_empty_argument_dropped_refuted : exists o n,
  ast_parse o false (lit "=IF(a,,b)") = Ok n /\ show n = lit "IF(a, b)".
Proof. exists ex_oracle. eexists. split; vm_compute; reflexivity. Qed.
Print Assumptions C13_empty_argument_dropped_refuted.
Theorem C13_double_sign_dropped_refuted : exists o n,
  ast_parse o false (lit "=--5") = Ok n /\ show n = lit "-5".
Proof. exists ex_oracle. eexists. split; vm_compute; reflexivity. Qed.
Print Assumptions C13_double_sign_dropped_refuted.

(** ** C14 *)
Theorem C14_string_literal_partial : forall o sg t,
  ast_parse o sg ([c_dquote] ++ double_quotes t ++ [c_dquote]) = Ok (NText t).
Proof. exact string_literal. Qed.
Print Assumptions C14_string_literal_partial.
Example C14_nonvacuous : double_quotes (lit "say ""hi"", #1") = lit "say """"hi"""", #1".
Proof. reflexivity. Qed.
(** emitted back, a text without quotes is a literal for itself (missing: texts with quotes) *)
Theorem C14_emitted_literal_partial : forall o sg t,
  forallb (fun c => negb (c =? c_dquote)%N) t = true ->
  ast_parse o sg (show (NText t)) = Ok (NText t).
Proof.
  intros o sg t H. cbn [show]. pose proof (string_literal o sg t) as X.
  rewrite double_quotes_plain in X by exact H. exact X.
Qed.
Print Assumptions C14_emitted_literal_partial.
Theorem C14_emitted_literal_refuted : exists o n,
  ast_parse o false (lit "=""a"""" & """"b""") = Ok n
  /\ n = NText (lit "a"" & ""b")
  /\ ast_parse o false (show n) = Ok (NInfix (NText (lit "a")) (lit "&") (NText (lit "b"))).
Proof. exists ex_oracle. eexists. repeat split; vm_compute; reflexivity. Qed.
Print Assumptions C14_emitted_literal_refuted.

(** ** C15, C50 *)
(** The tokens are slices of the text, in order, with only white space and comments between. *)
Theorem C15_tokens_tile_the_input : forall u s lx,
  ast_lex u s = Ok lx ->
  exists body l, (s = c_eq :: body \/ (s = body /\ forall r, s <> c_eq :: r))
    /\ map tm_str (lx_tokens lx) = map snd l /\ slices (length s - length body) body l.
Proof.
  intros u s lx H. unfold ast_lex in H.
  destruct (strip_prefix [c_eq] s) as [r|] eqn:E.
  - apply strip_prefix_spec in E. simpl in E. subst s.
    destruct (lex_slices u _ _ _ _ _ _ H 1) as [new [l [E1 [E2 [E3 _]]]]]. simpl in E1.
    exists r, l. rewrite E1. split; [auto|]. split; [exact E2|]. replace (length (c_eq :: r) - length r) with 1 by (cbn [length]; lia). exact E3.
  - destruct (lex_slices u _ _ _ _ _ _ H 0) as [new [l [E1 [E2 [E3 _]]]]]. simpl in E1.
    exists s, l. rewrite E1. split; [|split; [exact E2|]].
    + right. split; [reflexivity|]. intros r ->. simpl in E. discriminate.
    + rewrite Nat.sub_diag. exact E3.
Qed.
Print Assumptions C15_tokens_tile_the_input.
Example C15_nonvacuous : exists lx, ast_lex (o_unicode ex_oracle) (lit "= foo(1 # rest") = Ok lx
  /\ map tm_str (lx_tokens lx) = [lit "foo"; lit "("; lit "1"].
Proof. eexists. split; vm_compute; reflexivity. Qed.
(** A name followed by a space, parenthesis, comma, percent sign, newline or the end is one
    reference token, whatever it is, unless it starts with use, true or false or is fn. *)
Theorem C15_identifier_is_one_token_partial : forall u s rest,
  ident u s = true -> s <> lit "fn" -> delim rest = true ->
  first_match (matchers_ordered u) (s ++ rest) = Some (TReference, s, rest).
Proof. exact first_match_ident. Qed.
Print Assumptions C15_identifier_is_one_token_partial.
Example C15_identifier_nonvacuous :
  forallb (ident (o_unicode ex_oracle)) [lit "us"; lit "fnord"; lit "Sheet1!$A$1:B2"; lit "TRUE"; lit "_x"] = true.
Proof. reflexivity. Qed.
Theorem C15_keyword_prefix_refuted :
  let toks s := match ast_lex (o_unicode ex_oracle) (lit s) with
                | Ok lx => erase (lx_tokens lx) | _ => [] end in
  toks "user"%string = [(TUseModule, lit "use"); (TReference, lit "r")]
  /\ toks "trueish"%string = [(TBoolean, lit "true"); (TReference, lit "ish")]
  /\ toks "falsehood"%string = [(TBoolean, lit "false"); (TReference, lit "hood")]
  /\ toks "foo:=1"%string = [(TReference, lit "foo:"); (TOperator, lit "="); (TInteger, lit "1")].
Proof. repeat split; vm_compute; reflexivity. Qed.
Print Assumptions C15_keyword_prefix_refuted.
(** Positions: in a one-line ASCII formula every token is recorded at its index in the text. *)
Theorem C50_token_positions_partial : forall u s lx,
  ast_lex u s = Ok lx -> ascii_line s = true ->
  exists l, slices (length s - length (formula_text s)) (formula_text s) l /\ Forall2 at_index (lx_tokens lx) l.
Proof.
  intros u s lx H Ha. unfold ast_lex in H. unfold formula_text.
  destruct (strip_prefix [c_eq] s) as [r|] eqn:E.
  - apply strip_prefix_spec in E. simpl in E. subst s.
    destruct (lex_slices u _ _ _ _ _ _ H 1) as [new [l [E1 [E2 [E3 E4]]]]]. simpl in E1. rewrite E1.
    exists l. replace (length (c_eq :: r) - length r) with 1 by (cbn [length]; lia). split; [exact E3|].
    apply (ascii_line_app [c_eq] r) in Ha as [_ Ha]. apply E4; auto.
  - destruct (lex_slices u _ _ _ _ _ _ H 0) as [new [l [E1 [E2 [E3 E4]]]]]. simpl in E1. rewrite E1.
    exists l. rewrite Nat.sub_diag. split; [exact E3|]. apply E4; auto.
Qed.
Print Assumptions C50_token_positions_partial.
Example C50_nonvacuous : exists lx, ast_lex (o_unicode ex_oracle) (lit "=a +  bc") = Ok lx
  /\ ascii_line (lit "=a +  bc") = true
  /\ map (fun t => (tm_str t, line_offset (tm_position t))) (lx_tokens lx) = [(lit "a", 1); (lit "+", 3); (lit "bc", 6)].
Proof. eexists. repeat split; vm_compute; reflexivity. Qed.
(** beyond ASCII the recorded column counts bytes: the token after a string holding one two-byte character
    is recorded one column to the right *)
Theorem C50_multibyte_column_refuted : exists lx t,
  ast_lex (o_unicode ex_oracle) ([c_dquote; 233%N; c_dquote] ++ lit "+1") = Ok lx
  /\ nth_error (lx_tokens lx) 1 = Some t /\ tm_str t = lit "+" /\ line_offset (tm_position t) = 4.
Proof. do 2 eexists. repeat split; vm_compute; reflexivity. Qed.
Print Assumptions C50_multibyte_column_refuted.
(** a line break inside a string literal is not counted *)
Theorem C50_line_in_string_refuted : exists lx t,
  ast_lex (o_unicode ex_oracle) ([c_dquote; c_nl; c_dquote] ++ lit "+1") = Ok lx
  /\ nth_error (lx_tokens lx) 1 = Some t /\ tm_str t = lit "+" /\ tm_position t = {| line_number := 0; line_offset := 3 |}.
Proof. do 2 eexists. repeat split; vm_compute; reflexivity. Qed.
Print Assumptions C50_line_in_string_refuted.

(** ** C48 *)
(** Parsing ends in a result or an error value, provided the text can be cut after 50 bytes wherever
    that is asked for: every ASCII text and every text of at most 50 bytes can. Missing: the other
    texts, for which the claim is false (below). *)
Theorem C48_formula_parsing_total_partial : forall o sg s, cuttable s ->
  (exists n, ast_parse o sg s = Ok n) \/ (exists e, ast_parse o sg s = Err e).
Proof. exact parse_total. Qed.
Print Assumptions C48_formula_parsing_total_partial.
Theorem C48_code_section_parsing_total_partial : forall o s, cuttable s ->
  (exists r, code_section_parse o s = Ok r) \/ (exists e, code_section_parse o s = Err e).
Proof. exact section_total. Qed.
Print Assumptions C48_code_section_parsing_total_partial.
Theorem C48_key_values_total_partial : forall o kvs, Forall cuttable kvs ->
  (exists r, parse_key_values o kvs [] = Ok r) \/ (exists e, parse_key_values o kvs [] = Err e).
Proof.
  intros o kvs. generalize (@nil (list N * node)). induction kvs as [|kv kvs IH]; intros acc Hf; simpl.
  - left. eexists. reflexivity.
  - apply Forall_cons_iff in Hf as [Hkv Hf].
    destruct (split_once c_eq kv) as [[k v]|] eqn:E; [|right; eexists; reflexivity].
    assert (Hv : cuttable v).
    { assert (X : exists a, kv = a ++ v).
      { clear - E. revert k v E. induction kv as [|x r IH]; intros k v E; [discriminate|]. simpl in E.
        destruct (x =? c_eq)%N.
        - inversion E; subst. exists [x]. reflexivity.
        - destruct (split_once c_eq r) as [[a b]|]; [|discriminate]. inversion E; subst.
          destruct (IH _ _ eq_refl) as [z ->]. exists (x :: z). reflexivity. }
      destruct X as [a ->]. eapply cuttable_tail; eauto. }
    destruct (parse_total o false v Hv) as [[n ->]|[e ->]]; [apply IH; assumption|right; eexists; reflexivity].
Qed.
Print Assumptions C48_key_values_total_partial.
Theorem C48_ascii_and_short_texts_are_cuttable : forall s,
  forallb is_ascii s = true \/ utf8_len s <= 50 -> cuttable s.
Proof. intros s [H|H]; [apply ascii_cuttable|apply short_cuttable]; exact H. Qed.
Print Assumptions C48_ascii_and_short_texts_are_cuttable.
(** C48 refuted: an unknown character followed by enough two-byte characters is a panic, in a cell
    formula, in a code section and on the command line. *)
Theorem C48_long_unknown_token_refuted :
  let bad := [64%N] ++ repeat 233%N 30 in
  ast_parse ex_oracle false (c_eq :: bad) = Panic
  /\ code_section_parse ex_oracle (lit "x :=" ++ bad) = Panic
  /\ parse_key_values ex_oracle [lit "x=" ++ bad] [] = Panic.
Proof. repeat split; vm_compute; reflexivity. Qed.
Print Assumptions C48_long_unknown_token_refuted.

(** ** C49 *)
(** A code section made of imports followed by definitions, one per line, defines exactly these,
    in order. *)
Theorem C49_code_section_partial : forall o l,
  Forall (item_ok o) l -> uses_first l ->
  code_section_parse o (section_text l)
  = Ok (fold_left item_scope l empty_scope, concat (map item_modules l)).
Proof. exact section_reads. Qed.
Print Assumptions C49_code_section_partial.
Definition ex_items : list item :=
  [IUse (lit "math"); IVar (lit "rate") (NInt true None 5);
   IFn (lit "add") [lit "a"; lit "b"] (NInfix (NRef (lit "a")) (lit "+") (NRef (lit "b")));
   IVar (lit "x") (NCall [NRef (lit "rate"); NInt false None 1] (lit "add"))].
Example C49_nonvacuous : Forall (item_ok ex_oracle) ex_items /\ uses_first ex_items
  /\ section_text ex_items = lit "use math" ++ [c_nl] ++ lit "rate := 5%" ++ [c_nl]
       ++ lit "fn add(a, b) (a + b)" ++ [c_nl] ++ lit "x := add(rate, 1)" ++ [c_nl].
Proof.
  split; [|split; reflexivity].
  repeat constructor; try (vm_compute; reflexivity); try discriminate; simpl; auto 10; vm_compute; discriminate.
Qed.
(** an import after a definition is rejected *)
Theorem C49_late_import_refuted : exists o e,
  code_section_parse o (lit "a := 1" ++ [c_nl] ++ lit "use math") = Err e /\ pe_kind e = EUnexpectedToken TUseModule.
Proof. exists ex_oracle. eexists. split; vm_compute; reflexivity. Qed.
Print Assumptions C49_late_import_refuted.
(** a module in a subdirectory cannot be imported: the slash is an operator token *)
Theorem C49_nested_module_refuted : exists o e, code_section_parse o (lit "use lib/math") = Err e.
Proof. exists ex_oracle. eexists. vm_compute. reflexivity. Qed.
Print Assumptions C49_nested_module_refuted.

(** ** C51 *)
(** A minus before a name is rejected, for every name; before a number it negates it. *)
Theorem C51_negated_reference_refuted : forall o r,
  name_ok (o_unicode o) r ->
  exists e, ast_parse o false (c_minus :: r) = Err e /\ pe_kind e = EExpectedNumberAfterPrefix.
Proof.
  intros o r [Hi Hn].
  assert (Hl : lexes (o_unicode o) (c_minus :: r) [(TOperator, lit "-"); (TReference, r)]).
  { apply lexes_minus. rewrite <- (app_nil_r r) at 1. apply lexes_ident; auto. apply lx_end. reflexivity. }
  change (c_minus :: r) with (formula_text (c_minus :: r)) in Hl at 1.
  destruct (ast_lex_complete _ _ _ Hl) as [lx [E1 E2]].
  unfold ast_parse. rewrite E1, E2.
  assert (Hp : expr_bp (parser_fuel [(TOperator, lit "-"); (TReference, r)]) o false 0
                 [(TOperator, lit "-"); (TReference, r)]
               = Err {| e_kind := EExpectedNumberAfterPrefix; e_left := 2 |}) by (vm_compute; reflexivity).
  rewrite Hp. cbn [bind locate].
  eexists. split; [reflexivity|]. destruct (error_token lx _); reflexivity.
Qed.
Print Assumptions C51_negated_reference_refuted.
Theorem C51_negated_integer_partial : forall o p s v, (0 <= v <= Z.of_N I64_MAX)%Z ->
  ast_parse o false (show (NInt p (Some s) v)) = Ok (NInt p (Some s) v).
Proof. intros o p s v H. apply (parse_show o false (NInt p (Some s) v)). constructor. exact H. Qed.
Print Assumptions C51_negated_integer_partial.
Example C51_nonvacuous : name_ok (o_unicode ex_oracle) (lit "A1") /\ show (NInt false (Some Negative) 7) = lit "-7".
Proof. split; [split; [reflexivity|discriminate]|reflexivity]. Qed.
