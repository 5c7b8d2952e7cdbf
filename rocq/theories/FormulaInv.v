(** * FormulaInv: what the lexer and parser produce; closing the round trip. *)
From Coq Require Import ZifyBool ZifyN.
From Verif Require Import Base BaseProofs Csvp Ast AstProofs AstLexer AstParser FormulaSpec
  AstParserProofs AstLexerProofs FormulaProofs FormulaText.

Scheme expr_of_mut := Induction for expr_of Sort Prop
  with args_of_mut := Induction for args_of Sort Prop.

(** ** From the parser's grammar to the specification's *)
Lemma op_tok_cases t op : t = TOperator \/ t = TOpenParen -> lexer_tok (t, op) ->
  (t = TOperator /\ In op operators) \/ (t = TOpenParen /\ op = lit "(").
Proof. intros [-> | ->] H; [left|right]; auto. Qed.

Lemma infix_class_ops op p : In op operators -> infix_class op = Some p -> In op infix_ops.
Proof.
  unfold operators. intros H Hc. simpl in H.
  repeat (destruct H as [<-|H]; [first [discriminate Hc | simpl; tauto]|]). contradiction.
Qed.

Lemma strict_grammar o ts n : expr_of' o ts n -> Forall lexer_tok ts -> expr_of o ts n.
Proof.
  intro H. induction H using expr_of'_mut with
    (P0 := fun ts ns (_ : args_of' o ts ns) => Forall lexer_tok ts -> args_of o ts ns);
    intro Hf; try (constructor; eauto; fail).
  - constructor. apply IHexpr_of'. apply Forall_cons_iff in Hf as [_ Hf]. apply Forall_app in Hf. tauto.
  - apply Forall_cons_iff in Hf as [Hx Hf]. eapply e_plus; eauto.
  - apply Forall_cons_iff in Hf as [Hx Hf]. eapply e_minus; eauto.
  - apply Forall_app in Hf as [Hf1 Hf]. apply Forall_cons_iff in Hf as [Hx Hf].
    destruct (op_tok_cases _ _ o0 Hx) as [[-> _] | [-> X]]; [|discriminate].
    eapply e_percent; eauto.
  - apply Forall_app in Hf as [Hf1 Hf]. apply Forall_cons_iff in Hf as [Hx Hf]. apply Forall_app in Hf as [Hf _].
    destruct (op_tok_cases _ _ o0 Hx) as [[-> X] | [-> _]].
    + simpl in X. repeat (destruct X as [X|X]; [discriminate|]). contradiction.
    + apply e_call; auto.
  - apply Forall_app in Hf as [Hf1 Hf]. apply Forall_cons_iff in Hf as [Hx Hf].
    destruct (op_tok_cases _ _ o0 Hx) as [[-> X] | [-> X]].
    + apply e_infix; auto. eapply infix_class_ops; eauto.
    + subst op. discriminate.
  - apply Forall_cons_iff in Hf as [Hx Hf]. constructor. auto.
  - apply Forall_app in Hf as [Hf1 Hf]. constructor; auto.
Qed.

(** ** What the lexer produces *)
Definition tok_ok (u : unicode) (t : tok) : Prop :=
  match fst t with
  | TOperator => In (snd t) operators
  | TOpenParen => snd t = lit "("
  | TReference => ident u (snd t) = true
  | TEof | TNewline | TComment => False
  | _ => True
  end.
Lemma tok_ok_lexer u t : tok_ok u t -> lexer_tok t.
Proof. destruct t as [[] s]; unfold tok_ok, lexer_tok; simpl; tauto. Qed.

Lemma m_alt_In ps s a r : m_alt ps s = Some (a, r) -> In a ps.
Proof.
  induction ps as [|p ps IH]; simpl; [discriminate|].
  unfold m_lit at 1. destruct (strip_prefix p s); intro H; [inversion H; auto|auto].
Qed.

Lemma starts_with_app p a r : starts_with p a = true -> strip_prefix p (a ++ r) <> None.
Proof.
  unfold starts_with. revert a. induction p as [|x p IH]; intros a H; simpl; [discriminate|].
  destruct a as [|y a]; simpl in *; [discriminate|]. destruct (N.eqb x y); [|discriminate]. auto.
Qed.

Lemma reference_ident u body a r :
  m_reference u body = Some (a, r) -> m_integer u body = None ->
  m_lit (lit "use") body = None -> m_lit (lit "true") body = None -> m_lit (lit "false") body = None ->
  ident u a = true.
Proof.
  intros Hm Hi Hu Ht Hf.
  pose proof (good_reference u _ _ _ Hm) as [Eb Hne].
  assert (Hkw : forall p, m_lit p body = None -> starts_with p a = false).
  { intros p Hp. destruct (starts_with p a) eqn:E; [|reflexivity]. exfalso.
    apply starts_with_app with (r := r) in E. rewrite <- Eb in E. unfold m_lit in Hp.
    destruct (strip_prefix p body); congruence. }
  unfold m_reference in Hm. destruct (span (ref_char u) body) as [x y] eqn:Es.
  destruct (span_spec _ _ _ _ Es) as [Ebody [Hx Hy]].
  destruct x as [|c x]; [discriminate|].
  assert (Hc : is_digit u c = false).
  { destruct (is_digit u c) eqn:E; [|reflexivity]. exfalso. unfold m_integer, m_plus in Hi.
    rewrite Ebody in Hi. simpl in Hi. rewrite E in Hi. destruct (span (is_digit u) (x ++ y)). discriminate. }
  assert (Ha : exists d, a = (c :: x) ++ d /\ (d = [] \/ d = [c_dot])).
  { destruct y as [|d y].
    - inversion Hm; subst. exists []. rewrite app_nil_r. auto.
    - destruct (N.eqb_spec d c_dot); inversion Hm; subst.
      + exists [c_dot]. auto.
      + exists []. rewrite app_nil_r. auto. }
  destruct Ha as [d [Ea Hd]].
  unfold ident. rewrite (Hkw _ Hu), (Hkw _ Ht), (Hkw _ Hf). rewrite Ea. simpl app. cbv iota.
  rewrite Hc. simpl negb. rewrite !andb_true_r. cbn [andb].
  destruct Hd as [-> | ->].
  - rewrite app_nil_r.
    destruct (rev (c :: x)) as [|z w] eqn:Er.
    { apply (f_equal (@rev N)) in Er. rewrite rev_involutive in Er. discriminate. }
    destruct (N.eqb_spec z c_dot) as [->|]; [|exact Hx]. exfalso.
    assert (Hin : In c_dot (c :: x)) by (apply in_rev; rewrite Er; left; reflexivity).
    rewrite forallb_forall in Hx. apply Hx in Hin. discriminate.
  - change (c :: x ++ [c_dot]) with ((c :: x) ++ [c_dot]). rewrite rev_app_distr.
    change (rev [c_dot] ++ rev (c :: x)) with (c_dot :: rev (c :: x)). cbv iota beta.
    change (c_dot =? c_dot)%N with true. cbv iota. rewrite (rev_involutive (c :: x)). exact Hx.
Qed.

Lemma first_match_ok u body t m rest : first_match (matchers_ordered u) body = Some (t, m, rest) ->
  t = TNewline \/ t = TComment \/ tok_ok u (t, trim m).
Proof.
  unfold matchers_ordered. cbn [first_match]. intro H.
  repeat match type of H with
  | (match ?x with Some _ => _ | None => _ end) = _ =>
      let E := fresh "E" in destruct x as [[? ?]|] eqn:E
  end; try discriminate; inversion H; subst; auto; right; right; unfold tok_ok; simpl; try exact I.
  - match goal with E : m_lit (lit "(") body = Some _ |- _ => revert E end.
    unfold m_lit. destruct (strip_prefix (lit "(") body); [|discriminate]. intro X. inversion X; subst. reflexivity.
  - match goal with E : m_operator body = Some _ |- _ => apply m_alt_In in E; rename E into Eo end.
    unfold operators in Eo. simpl in Eo.
    repeat (destruct Eo as [<-|Eo]; [vm_compute; tauto|]). contradiction.
  - assert (Hid : ident u m = true) by (eapply reference_ident; eassumption).
    rewrite (trim_nows m (ident_nows u m Hid)). exact Hid.
Qed.

Lemma lexes_ok u s ts : lexes u s ts -> Forall (tok_ok u) ts.
Proof.
  induction 1 as [|s ws body t m rest ts Hsp Hm Hl IH]; [constructor|].
  apply first_match_ok in Hm as [-> | [-> | H]]; auto.
  unfold emit. destruct t; auto; constructor; auto.
Qed.

(** ** Parsed trees print as readable text *)
Definition number_ok (o : oracle) (n : node) : Prop :=
  match n with NInt _ _ v => (0 <= v <= Z.of_N I64_MAX)%Z | _ => True end.

Lemma tame_call args name : tame (NCall args name) <-> name <> lit "fn" /\ Forall tame args.
Proof.
  cbn [tame]. split; intros [H1 H2]; split; auto.
  - clear H1. induction args; [constructor|]. constructor; tauto.
  - clear H1. induction H2; [exact I|]. split; auto.
Qed.

Lemma sign_keeps o s n n' : apply_sign s n = Some n' -> tame n' -> printable o n \/ ~ tame n ->
  printable o n'.
Proof.
  intros Hs Ht [Hp|Hn]; destruct n; try discriminate; simpl in Hs; inversion Hs; subst.
  - inversion Hp; subst; constructor; auto.
  - inversion Hp; subst; constructor; auto.
  - contradiction.
  - contradiction.
Qed.
Lemma percent_keeps o n n' : apply_percent n = Some n' -> tame n' -> printable o n \/ ~ tame n ->
  printable o n'.
Proof.
  intros Hs Ht [Hp|Hn]; destruct n; try discriminate; simpl in Hs; inversion Hs; subst.
  - inversion Hp; subst; constructor; auto.
  - inversion Hp; subst; constructor; auto.
  - contradiction.
  - contradiction.
Qed.
Lemma sign_tame s n n' : apply_sign s n = Some n' -> tame n' -> tame n.
Proof. destruct n; simpl; intro H; inversion H; subst; auto. Qed.
Lemma percent_tame n n' : apply_percent n = Some n' -> tame n' -> tame n.
Proof. destruct n; simpl; intro H; inversion H; subst; auto. Qed.

Lemma parse_i64_range s v : parse_i64 s = Some v -> (0 <= v <= Z.of_N I64_MAX)%Z.
Proof.
  unfold parse_i64. destruct (all_digits s); [|discriminate].
  destruct (digits_value s <=? I64_MAX)%N eqn:E; intro H; inversion H; subst. unfold I64_MAX in *. lia.
Qed.

Lemma parsed_printable o ts n : f64_ok o -> expr_of o ts n -> Forall (tok_ok (o_unicode o)) ts ->
  tame n -> printable o n.
Proof.
  intros Hok H. induction H using expr_of_mut with
    (P0 := fun ts ns (_ : args_of o ts ns) => Forall (tok_ok (o_unicode o)) ts -> Forall tame ns ->
             Forall (printable o) ns); intros Hf Ht.
  - inversion Hf; subst. destruct t; try discriminate; unfold ast_try_from in e0.
    + destruct (str_eqb _ _); [inversion e0; constructor|].
      destruct (str_eqb _ _); inversion e0; constructor.
    + destruct (text_unquote s); inversion e0; subst. constructor. exact Ht.
    + destruct (f64_canon o s) as [v|] eqn:E; inversion e0; subst.
      destruct (Hok _ _ E) as [[k ->] | [[Hd Hc] | ->]].
      * constructor. apply (proj2 Ht). reflexivity.
      * apply p_frac; assumption.
      * destruct Ht as [Ht _]. congruence.
    + destruct (parse_i64 s) as [v|] eqn:E; inversion e0; subst. constructor.
      eapply parse_i64_range; eauto.
    + inversion e0; subst. constructor; [exact H1|exact Ht].
  - apply IHexpr_of; auto. inversion Hf; subst. apply Forall_app in H3. tauto.
  - inversion Hf; subst. eapply sign_keeps; eauto. left. apply IHexpr_of; auto. eapply sign_tame; eauto.
  - inversion Hf; subst. eapply sign_keeps; eauto. left. apply IHexpr_of; auto. eapply sign_tame; eauto.
  - apply Forall_app in Hf as [Hf _]. eapply percent_keeps; eauto. left. apply IHexpr_of; auto. eapply percent_tame; eauto.
  - apply Forall_app in Hf as [Hf1 Hf2]. apply Forall_cons_iff in Hf2 as [_ Hf2]. apply Forall_app in Hf2 as [Hf2 _].
    apply tame_call in Ht as [Hn Ha].
    assert (Hr : printable o (NRef id)) by (apply IHexpr_of; auto).
    inversion Hr; subst. constructor; auto.
  - apply Forall_app in Hf as [Hf1 Hf2]. inversion Hf2; subst. destruct Ht. constructor; auto.
  - constructor.
  - inversion Hf; subst. auto.
  - apply Forall_app in Hf as [Hf1 Hf2]. inversion Ht; subst. constructor; auto.
Qed.

Theorem parse_inv o sg s n : ast_parse o sg s = Ok n -> exists lx used rest,
  ast_lex (o_unicode o) s = Ok lx /\ erase (lx_tokens lx) = used ++ rest
  /\ expr_of o used n /\ stop_tok sg (fst (peek rest)) = true
  /\ Forall (tok_ok (o_unicode o)) (used ++ rest).
Proof.
  unfold ast_parse. destruct (ast_lex (o_unicode o) s) as [lx|u| |] eqn:El; try discriminate.
  2: { unfold unknown_error. destruct (_ <=? _); [discriminate|]. destruct (byte_split _ _) as [[? ?]|]; discriminate. }
  pose proof (lexes_ok _ _ _ (ast_lex_sound _ _ _ El)) as Hok.
  assert (Hl : Forall lexer_tok (erase (lx_tokens lx))).
  { eapply Forall_impl; [|exact Hok]. intro. apply tok_ok_lexer. }
  set (ts := erase (lx_tokens lx)) in *.
  destruct (expr_bp (parser_fuel ts) o sg 0 ts) as [[e rest]| | |] eqn:E; simpl; try discriminate.
  intro H. inversion H; subst e.
  pose proof (expr_stop o sg _ _ _ _ Hl E) as Hst.
  apply (proj1 (parser_sound o sg _)) in E as [used [Ets [Hd _]]].
  exists lx, used, rest. rewrite Ets in *. repeat split; auto.
  apply strict_grammar; auto. apply Forall_app in Hl. tauto.
Qed.

Theorem round_trip o sg s n : f64_ok o -> ast_parse o sg s = Ok n -> tame n ->
  ast_parse o sg (show n) = Ok (canonical n) /\ ast_parse o sg (c_eq :: show n) = Ok (canonical n)
  /\ show (canonical n) = show n.
Proof.
  intros Hok Hp Ht. destruct (parse_inv o sg s n Hp) as [lx [used [rest [_ [_ [Hd [_ Hf]]]]]]].
  apply Forall_app in Hf as [Hf _].
  pose proof (parsed_printable o used n Hok Hd Hf Ht) as Hpr.
  destruct (parse_show o sg n Hpr). repeat split; auto. eapply show_canonical; eauto.
Qed.

(** ** Balanced formulas are read whole *)
Lemma expr_closed o ts n : expr_of o ts n -> forall d rest, closed_at d (ts ++ rest) = closed_at d rest.
Proof.
  intro H. induction H using expr_of_mut with
    (P0 := fun ts ns (_ : args_of o ts ns) => forall d rest, closed_at (S d) (ts ++ rest) = closed_at (S d) rest);
    intros d rest; simpl.
  - destruct t; try discriminate; reflexivity.
  - rewrite <- app_assoc. rewrite IHexpr_of. reflexivity.
  - apply IHexpr_of.
  - apply IHexpr_of.
  - rewrite <- app_assoc. rewrite IHexpr_of. reflexivity.
  - rewrite <- app_assoc. rewrite IHexpr_of. simpl. rewrite <- app_assoc. rewrite IHexpr_of0. reflexivity.
  - rewrite <- app_assoc. rewrite IHexpr_of1. simpl. apply IHexpr_of2.
  - reflexivity.
  - apply IHexpr_of.
  - rewrite <- app_assoc. rewrite IHexpr_of. apply IHexpr_of0.
Qed.

Theorem balanced_whole o s n lx : ast_parse o false s = Ok n -> ast_lex (o_unicode o) s = Ok lx ->
  closed_at 0 (erase (lx_tokens lx)) = true -> expr_of o (erase (lx_tokens lx)) n.
Proof.
  intros Hp Hl Hc. destruct (parse_inv o false s n Hp) as [lx' [used [rest [E1 [E2 [Hd [Hs Hf]]]]]]].
  rewrite Hl in E1. inversion E1; subst lx'. rewrite E2 in *.
  rewrite (expr_closed o used n Hd 0 rest) in Hc.
  destruct rest as [|[t x] rest]; [rewrite app_nil_r; exact Hd|]. exfalso.
  apply Forall_app in Hf as [_ Hf]. inversion Hf; subst.
  destruct t; simpl in *; try discriminate. contradiction.
Qed.

(** ** Totality *)
Lemma unknown_error_total {A} u : cuttable (ut_input u) -> exists e, @unknown_error A u = Err e.
Proof.
  intro H. unfold unknown_error. destruct (Nat.leb_spec (utf8_len (ut_input u)) 50) as [L|L]; [eexists; reflexivity|].
  destruct (H [] (ut_input u) eq_refl) as [?|[x [y [E Ex]]]]; [lia|].
  assert (F : byte_split 50 (ut_input u) = Some (x, y)) by (apply byte_split_spec; auto).
  rewrite F. eexists. reflexivity.
Qed.
Lemma cuttable_tail a r : cuttable (a ++ r) -> cuttable r.
Proof. intros H b c E. apply (H (a ++ b) c). rewrite E, app_assoc. reflexivity. Qed.
Theorem parse_total o sg s : cuttable s -> (exists n, ast_parse o sg s = Ok n) \/ (exists e, ast_parse o sg s = Err e).
Proof.
  intro Hc. unfold ast_parse. destruct (ast_lex_total (o_unicode o) s) as [[lx ->]|[e E]].
  2: { rewrite E. right. apply ast_lex_unknown in E as [a ->]. apply unknown_error_total. eapply cuttable_tail; eauto. }
  set (ts := erase (lx_tokens lx)).
  pose proof (proj1 (parser_total o sg (parser_fuel ts)) 0 ts) as F. unfold parser_fuel in F at 1.
  specialize (F ltac:(lia)). simpl.
  destruct (expr_bp (parser_fuel ts) o sg 0 ts) as [[e rest]| | |]; simpl in *; try contradiction.
  - left. eexists. reflexivity.
  - right. eexists. reflexivity.
Qed.
Lemma ascii_cuttable s : forallb is_ascii s = true -> cuttable s.
Proof.
  intros H a r ->. rewrite forallb_app in H. apply andb_true_iff in H as [_ H].
  destruct (Nat.leb_spec (utf8_len r) 50) as [L|L]; [left; exact L|right].
  exists (firstn 50 r), (skipn 50 r). split; [symmetry; apply firstn_skipn|].
  pose proof (utf8_len_ascii r H) as E.
  rewrite <- (firstn_skipn 50 r), forallb_app in H. apply andb_true_iff in H as [H _].
  rewrite utf8_len_ascii by assumption. rewrite firstn_length. lia.
Qed.
Lemma short_cuttable s : utf8_len s <= 50 -> cuttable s.
Proof. intros H a r ->. left. rewrite utf8_len_app in H. lia. Qed.

(** ** String literals *)
Theorem string_literal o sg t : ast_parse o sg ([c_dquote] ++ double_quotes t ++ [c_dquote]) = Ok (NText t).
Proof.
  eapply ast_parse_reads with (ts := [(TDoubleQuotedString, [c_dquote] ++ double_quotes t ++ [c_dquote])]).
  - pose proof (lexes_string (o_unicode o) t [] []) as X. rewrite app_nil_r in X. apply X; [exact I|].
    apply lx_end. reflexivity.
  - eapply st_operand; [reflexivity| |apply st_stop; reflexivity].
    unfold ast_try_from, text_unquote. simpl. rewrite unquote_doubled. reflexivity.
Qed.
