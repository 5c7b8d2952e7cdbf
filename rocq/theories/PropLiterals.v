(** * Property C77: a literal in a formula stands for the value it spells. *)
From Verif Require Import Base BaseProofs Csvp Ast AstProofs AstLexer AstParser FormulaSpec
  AstParserProofs AstLexerProofs FormulaProofs FormulaText FormulaInv PropFormula.

(** What may be written before and after the digits of a number, and what it means. *)
Inductive signed : str -> option sign -> Prop := no_sign : signed [] None | plus_sign : signed (lit "+") (Some Positive) | minus_sign : signed (lit "-") (Some Negative).
Inductive percented : str -> bool -> Prop := no_percent : percented [] false | percent : percented (lit "%") true.
(** What may be written before a formula. *)
Inductive introduced : str -> Prop := bare : introduced [] | after_equals : introduced (lit "=").

Lemma introduced_lexes u i c s ts : introduced i -> c <> c_eq -> lexes u (c :: s) ts -> lexes u (formula_text (i ++ c :: s)) ts.
Proof. intros [] H L; [|exact L]. cbn [app]. unfold formula_text. rewrite strip_eq_none by exact H. exact L. Qed.
Lemma number_text o sg i sn s pn p t v (mk : bool -> option sign -> node) : introduced i -> signed sn s -> percented pn p ->
  (forall rest ts, delim rest = true -> lexes (o_unicode o) rest ts -> lexes (o_unicode o) (v ++ rest) ((t, v) :: ts)) ->
  (exists c r, v = c :: r /\ is_ascii_digit c = true) ->
  is_operand t = true -> ast_try_from o (t, v) = inr (mk false None) ->
  (forall p s s', apply_sign s' (mk p s) = Some (mk p (Some s'))) -> (forall p s, apply_percent (mk p s) = Some (mk true s)) ->
  ast_parse o sg (i ++ sn ++ v ++ pn) = Ok (mk p s).
Proof.
  intros Hi Hs Hp Hl [c [r [Ev Hc]]] Ho Ht A1 A2.
  assert (L : lexes (o_unicode o) (v ++ pn) ((t, v) :: pct_toks p ++ [])).
  { apply Hl; [destruct Hp; reflexivity|]. destruct Hp; [|apply lexes_percent]; apply lx_end; reflexivity. }
  assert (L2 : lexes (o_unicode o) (formula_text (i ++ sn ++ v ++ pn)) (sign_toks s ++ [(t, v)] ++ pct_toks p ++ [])).
  { assert (c <> c_eq) by (intros ->; discriminate Hc). destruct Hs; cbn [sign_toks app].
    - rewrite Ev in *. apply introduced_lexes; auto.
    - apply introduced_lexes; [exact Hi|discriminate|]. apply lexes_plus. exact L.
    - apply introduced_lexes; [exact Hi|discriminate|]. apply lexes_minus. exact L. }
  eapply ast_parse_reads; [exact L2|]. eapply read_number; eauto; [lia|left; reflexivity|]. apply st_stop. reflexivity.
Qed.

(** C77: a whole number: ASCII digits, with or without leading zeros, a sign and a percent sign, up to the greatest i64. *)
Theorem C77_integer : forall o sg i sn s a pn p, introduced i -> signed sn s -> percented pn p ->
  all_digits a = true -> (digits_value a <= 9223372036854775807)%N ->
  ast_parse o sg (i ++ sn ++ a ++ pn) = Ok (NInt p s (Z.of_N (digits_value a))).
Proof.
  intros o sg i sn s a pn p Hi Hs Hp Ha Hv. apply (number_text o sg i sn s pn p TInteger a (fun p s => NInt p s (Z.of_N (digits_value a)))); auto.
  - intros rest ts D L. apply lexes_integer; auto; [apply delim_not_digit|apply delim_not_dot]; exact D.
  - unfold all_digits in Ha. destruct a as [|c r]; [discriminate|]. exists c, r. split; [reflexivity|]. cbn [forallb] in Ha. apply andb_prop in Ha. tauto.
  - unfold ast_try_from, parse_i64. rewrite Ha. unfold I64_MAX. rewrite (proj2 (N.leb_le _ _) Hv). reflexivity.
Qed.
Print Assumptions C77_integer.
(** C77: a greater one is rejected, not rounded or wrapped around. *)
Theorem C77_integer_too_great : forall o sg i a, introduced i -> all_digits a = true -> (9223372036854775807 < digits_value a)%N ->
  exists e, ast_parse o sg (i ++ a) = Err e /\ pe_kind e = EInteger.
Proof.
  intros o sg i a Hi Ha Hv. assert (L : lexes (o_unicode o) (formula_text (i ++ a)) [(TInteger, a)]).
  { pose proof Ha as X. unfold all_digits in X. destruct a as [|c r]; [discriminate|]. cbn [forallb] in X. apply andb_prop in X as [Hc _].
    apply introduced_lexes; [exact Hi|intros ->; discriminate Hc|]. rewrite <- (app_nil_r (c :: r)) at 1. apply lexes_integer; try exact I; [exact Ha|apply lx_end; reflexivity]. }
  destruct (ast_lex_complete _ _ _ L) as [lx [E1 E2]]. unfold ast_parse. rewrite E1, E2. unfold parser_fuel. cbn [length Nat.mul Nat.add].
  assert (R : ast_try_from o (TInteger, a) = inl EInteger).
  { unfold ast_try_from, parse_i64. rewrite Ha. unfold I64_MAX. destruct (N.leb_spec (digits_value a) 9223372036854775807); [lia|reflexivity]. }
  change (expr_bp 4 o sg 0 [(TInteger, a)]) with (match ast_try_from o (TInteger, a) with inr e => bp_loop 3 o sg 0 e [] | inl k => fail k [(TInteger, a)] end).
  rewrite R. unfold fail, locate. cbn [bind]. destruct (error_token lx _); eexists; split; reflexivity.
Qed.
Print Assumptions C77_integer_too_great.
(** C77: a number with a decimal point is what the standard library reads it as. *)
Theorem C77_float : forall o sg i sn s v pn p w, introduced i -> signed sn s -> percented pn p -> decimal_text v -> f64_canon o v = Some w ->
  ast_parse o sg (i ++ sn ++ v ++ pn) = Ok (NFloat p s w).
Proof.
  intros o sg i sn s v pn p w Hi Hs Hp Hv Hw. apply (number_text o sg i sn s pn p TFloat v (fun p s => NFloat p s w)); auto.
  - intros rest ts D L. apply lexes_decimal; auto. apply delim_not_digit; exact D.
  - destruct Hv as [a [b [-> [Ha _]]]]. unfold all_digits in Ha. destruct a as [|c r]; [discriminate|]. exists c, (r ++ c_dot :: b). split; [reflexivity|]. cbn [forallb] in Ha. apply andb_prop in Ha. tauto.
  - unfold ast_try_from. rewrite Hw. reflexivity.
Qed.
Print Assumptions C77_float.
(** C77: the two truth values; a name; a text in double quotes, those inside doubled. *)
Theorem C77_words : forall o sg i, introduced i ->
  ast_parse o sg (i ++ lit "true") = Ok (NBool true) /\ ast_parse o sg (i ++ lit "false") = Ok (NBool false)
  /\ show (NBool true) = lit "TRUE" /\ show (NBool false) = lit "FALSE"
  /\ (forall s, ident (o_unicode o) s = true -> s <> lit "fn" -> ast_parse o sg (i ++ s) = Ok (NRef s))
  /\ (forall t, ast_parse o sg (i ++ [c_dquote] ++ double_quotes t ++ [c_dquote]) = Ok (NText t)).
Proof.
  intros o sg i Hi.
  assert (B : forall c r, c <> c_eq -> lexes (o_unicode o) (c :: r) [(TBoolean, c :: r)] -> forall b, ast_try_from o (TBoolean, c :: r) = inr (NBool b) -> ast_parse o sg (i ++ c :: r) = Ok (NBool b)).
  { intros c r Hc L b Hb. eapply ast_parse_reads; [apply introduced_lexes; eauto|]. eapply st_operand; [reflexivity|exact Hb|apply st_stop; reflexivity]. }
  assert (T : forall c r, is_blank c = false -> first_match (matchers_ordered (o_unicode o)) (c :: r) = Some (TBoolean, c :: r, []) -> trim (c :: r) = c :: r -> lexes (o_unicode o) (c :: r) [(TBoolean, c :: r)]).
  { intros c r Hb Hm Ht. rewrite <- Ht at 2. eapply lexes_token; eauto; [discriminate|discriminate|]. apply lx_end. reflexivity. }
  split; [apply B; [discriminate|apply T; reflexivity|reflexivity]|]. split; [apply B; [discriminate|apply T; reflexivity|reflexivity]|].
  split; [reflexivity|]. split; [reflexivity|]. split.
  - intros s Hs Hf. assert (L : lexes (o_unicode o) s [(TReference, s)]).
    { rewrite <- (app_nil_r s) at 1. apply lexes_ident; auto. apply lx_end. reflexivity. }
    destruct (ident_parts _ s Hs) as [c [b [d [E [Hb _]]]]]. destruct s as [|c' s']; [discriminate Hs|].
    assert (c' <> c_eq). { intros ->. cbn in E. injection E as <- _. cbn in Hb. discriminate Hb. }
    eapply ast_parse_reads; [apply introduced_lexes; eauto|]. eapply st_operand; [reflexivity|reflexivity|apply st_stop; reflexivity].
  - intro t. assert (L : lexes (o_unicode o) ([c_dquote] ++ double_quotes t ++ [c_dquote]) [(TDoubleQuotedString, [c_dquote] ++ double_quotes t ++ [c_dquote])]).
    { pose proof (lexes_string (o_unicode o) t [] []) as X. rewrite app_nil_r in X. apply X; [exact I|]. apply lx_end. reflexivity. }
    eapply ast_parse_reads; [apply (introduced_lexes _ i c_dquote); [exact Hi|discriminate|exact L]|].
    eapply st_operand; [reflexivity| |apply st_stop; reflexivity]. unfold ast_try_from, text_unquote. simpl. rewrite unquote_doubled. reflexivity.
Qed.
Print Assumptions C77_words.
(** Capital TRUE is not read as a truth value but as a name (which prints the same). *)
Theorem C77_capitals : forall o sg, ast_parse o sg (lit "=TRUE") = Ok (NRef (lit "TRUE")) /\ show (NRef (lit "TRUE")) = show (NBool true).
Proof.
  intros o sg. split; [|reflexivity]. destruct (C77_words o sg (lit "=") after_equals) as [_ [_ [_ [_ [H _]]]]]. apply (H (lit "TRUE")); [reflexivity|discriminate].
Qed.
Print Assumptions C77_capitals.
Example C77_nonvacuous : ast_parse ex_oracle false (lit "=-007%") = Ok (NInt true (Some Negative) 7)
  /\ ast_parse ex_oracle false (lit "+1.50") = Ok (NFloat false (Some Positive) (lit "1.5"))
  /\ (exists e, ast_parse ex_oracle false (lit "9223372036854775808") = Err e)
  /\ ast_parse ex_oracle false (lit "9223372036854775807") = Ok (NInt false None 9223372036854775807).
Proof. repeat split; try (eexists; vm_compute; reflexivity); vm_compute; reflexivity. Qed.
