(** * FormulaText: lexing of printed text; the round trips at the level of text. *)
From Coq Require Import ZifyBool ZifyN.
From Verif Require Import Base BaseProofs Csvp Ast AstProofs AstLexer AstParser FormulaSpec
  AstParserProofs AstLexerProofs FormulaProofs.

(** ** Character classes *)
Definition nows (s : str) : bool := forallb (fun c => negb (is_ws c)) s.
Lemma trim_nows s : nows s = true -> trim s = s.
Proof.
  intro H. unfold trim, trim_end.
  assert (Hs : forall t, nows t = true -> trim_start t = t).
  { intros [|c t] Ht; [reflexivity|]. simpl in *. apply andb_prop in Ht as [Hc _].
    apply negb_true_iff in Hc. rewrite Hc. reflexivity. }
  rewrite (Hs s H), Hs; [apply rev_involutive|].
  unfold nows in *. rewrite forallb_forall in *. intros x Hx. apply H. apply in_rev. exact Hx.
Qed.
Lemma trim_ends c s d : is_ws c = false -> is_ws d = false -> trim (c :: s ++ [d]) = c :: s ++ [d].
Proof.
  intros Hc Hd. unfold trim, trim_end. simpl. rewrite Hc. simpl.
  rewrite rev_app_distr. simpl. rewrite Hd. simpl. rewrite rev_app_distr. simpl.
  rewrite rev_involutive. reflexivity.
Qed.
Lemma ref_not_ws u c : ref_char u c = true -> is_ws c = false.
Proof. intro H. destruct (is_ws c) eqn:E; [|reflexivity]. rewrite (is_ws_not_ref u c E) in H. discriminate. Qed.
Lemma ascii_digit_digit u c : is_ascii_digit c = true -> is_digit u c = true.
Proof.
  intro H. unfold is_digit, is_ascii. unfold is_ascii_digit in H |- *.
  replace (c <? 128)%N with true by lia. exact H.
Qed.
Lemma ascii_digit_not_ws c : is_ascii_digit c = true -> is_ws c = false.
Proof. unfold is_ascii_digit, is_ws. lia. Qed.

(** ** Text that may follow a printed operand *)
Definition delim (s : str) : bool :=
  match s with
  | [] => true
  | c :: _ => ((c =? 32) || (c =? 41) || (c =? 44) || (c =? 40) || (c =? 37) || (c =? 10))%N
  end.
Lemma delim_head c s : delim (c :: s) = true ->
  c = 32%N \/ c = 41%N \/ c = 44%N \/ c = 40%N \/ c = 37%N \/ c = 10%N.
Proof. simpl. lia. Qed.
Lemma delim_not_ref u s : delim s = true -> match s with [] => True | c :: _ => ref_char u c = false end.
Proof. destruct s as [|c s]; [trivial|]. intro H. apply delim_head in H as [->|[->|[->|[->|[->| ->]]]]]; reflexivity. Qed.
Lemma delim_not_digit u s : delim s = true -> match s with [] => True | c :: _ => is_digit u c = false end.
Proof. destruct s as [|c s]; [trivial|]. intro H. apply delim_head in H as [->|[->|[->|[->|[->| ->]]]]]; reflexivity. Qed.
Lemma delim_not_dot s : delim s = true -> match s with [] => True | c :: _ => (c =? c_dot)%N = false end.
Proof. destruct s as [|c s]; [trivial|]. intro H. apply delim_head in H as [->|[->|[->|[->|[->| ->]]]]]; reflexivity. Qed.

(** ** One token *)
Lemma lexes_token u c s t m rest ts : is_blank c = false ->
  first_match (matchers_ordered u) (c :: s) = Some (t, m, rest) -> t <> TNewline -> t <> TComment ->
  lexes u rest ts -> lexes u (c :: s) ((t, trim m) :: ts).
Proof.
  intros Hc Hm N1 N2 Hl.
  replace ((t, trim m) :: ts) with (emit t m ts) by (destruct t; try congruence; reflexivity).
  eapply lx_tok with (ws := []); [|exact Hm|exact Hl]. simpl. rewrite Hc. reflexivity.
Qed.

Lemma lexes_space u s ts : lexes u s ts -> lexes u (c_space :: s) ts.
Proof.
  intro H. inversion H; subst.
  - apply lx_end. simpl. assumption.
  - eapply lx_tok with (ws := c_space :: ws); [|eassumption|assumption].
    simpl. rewrite H0. reflexivity.
Qed.

(** single-character tokens and operators *)
Lemma lexes_open u s ts : lexes u s ts -> lexes u (c_lparen :: s) ((TOpenParen, lit "(") :: ts).
Proof. intro H. apply (lexes_token u c_lparen s TOpenParen (lit "(") s ts); try reflexivity; try discriminate. exact H. Qed.
Lemma lexes_close u s ts : lexes u s ts -> lexes u (c_rparen :: s) ((TCloseParen, lit ")") :: ts).
Proof. intro H. apply (lexes_token u c_rparen s TCloseParen (lit ")") s ts); try reflexivity; try discriminate. exact H. Qed.
Lemma lexes_comma u s ts : lexes u s ts -> lexes u (c_comma :: s) ((TComma, lit ",") :: ts).
Proof. intro H. apply (lexes_token u c_comma s TComma (lit ",") s ts); try reflexivity; try discriminate. exact H. Qed.
Lemma lexes_percent u s ts : lexes u s ts -> lexes u (c_percent :: s) ((TOperator, lit "%") :: ts).
Proof. intro H. apply (lexes_token u c_percent s TOperator (lit "%") s ts); try reflexivity; try discriminate. exact H. Qed.
Lemma lexes_plus u s ts : lexes u s ts -> lexes u (c_plus :: s) ((TOperator, lit "+") :: ts).
Proof. intro H. apply (lexes_token u c_plus s TOperator (lit "+") s ts); try reflexivity; try discriminate. exact H. Qed.
Lemma lexes_minus u s ts : lexes u s ts -> lexes u (c_minus :: s) ((TOperator, lit "-") :: ts).
Proof. intro H. apply (lexes_token u c_minus s TOperator (lit "-") s ts); try reflexivity; try discriminate. exact H. Qed.

Lemma lexes_op u op s ts : In op infix_ops -> lexes u s ts ->
  lexes u (op ++ c_space :: s) ((TOperator, op) :: ts).
Proof.
  intros Hin Hl. apply lexes_space in Hl.
  assert (H : exists c r, op = c :: r /\ is_blank c = false /\ trim op = op
     /\ first_match (matchers_ordered u) (op ++ c_space :: s) = Some (TOperator, op, c_space :: s)).
  { simpl in Hin.
    repeat (destruct Hin as [<-|Hin]; [eexists; eexists; repeat split; reflexivity|]). contradiction. }
  destruct H as [c [r [E [Hb [Ht Hm]]]]]. rewrite <- Ht at 2. subst op.
  apply (lexes_token u c (r ++ c_space :: s) TOperator (c :: r) (c_space :: s) ts);
    try discriminate; assumption.
Qed.

(** ** Numbers *)
Definition head_not (f : char -> bool) (s : str) : Prop := match s with [] => True | c :: _ => f c = false end.

Lemma first_match_digit u c s : is_ascii_digit c = true ->
  first_match (matchers_ordered u) (c :: s) =
  match m_float u (c :: s) with
  | Some (a, r) => Some (TFloat, a, r)
  | None => match m_integer u (c :: s) with Some (a, r) => Some (TInteger, a, r) | None =>
             first_match [(TBoolean, m_lit (lit "true")); (TBoolean, m_lit (lit "false")); (TReference, m_reference u)] (c :: s) end
  end.
Proof.
  intro H.
  assert (Hne : forall x : N, is_ascii_digit x = false -> x <> c) by (intros x Hx ->; congruence).
  unfold matchers_ordered. cbn [first_match].
  unfold m_newline. rewrite m_lit_ne by (apply Hne; reflexivity).
  unfold m_comment, m_dq.
  assert (E1 : (c =? c_hash)%N = false) by (apply N.eqb_neq; intro X; subst; discriminate).
  assert (E2 : (c =? c_dquote)%N = false) by (apply N.eqb_neq; intro X; subst; discriminate).
  rewrite E1, E2.
  assert (E3 : m_fn (c :: s) = None).
  { unfold m_fn. simpl lit. rewrite (proj2 (lit_ne _ 102%N c s)); [reflexivity|]. left. apply Hne. reflexivity. }
  rewrite E3.
  unfold m_operator, operators, m_alt. simpl lit.
  repeat (rewrite m_lit_ne by (apply Hne; reflexivity)). reflexivity.
Qed.

Lemma digits_span u a rest : forallb is_ascii_digit a = true -> head_not (is_digit u) rest ->
  span (is_digit u) (a ++ rest) = (a, rest).
Proof.
  intros Ha Hr. apply span_app; [|exact Hr].
  rewrite forallb_forall in *. intros x Hx. apply ascii_digit_digit. auto.
Qed.

Lemma nows_digits a : forallb is_ascii_digit a = true -> nows a = true.
Proof.
  unfold nows. rewrite !forallb_forall. intros H x Hx. apply negb_true_iff. apply ascii_digit_not_ws. auto.
Qed.

Lemma lexes_integer u a rest ts : all_digits a = true -> head_not (is_digit u) rest ->
  head_not (fun c => c =? c_dot)%N rest -> lexes u rest ts ->
  lexes u (a ++ rest) ((TInteger, a) :: ts).
Proof.
  intros Ha H1 H2 Hl. destruct a as [|c a]; [discriminate|]. unfold all_digits in Ha.
  rewrite <- (trim_nows (c :: a)) at 2 by (apply nows_digits; exact Ha).
  pose proof Ha as Hc. simpl in Hc. apply andb_prop in Hc as [Hc _].
  apply (lexes_token u c (a ++ rest) TInteger (c :: a) rest ts); try discriminate; [| |exact Hl].
  - unfold is_blank. rewrite (ascii_digit_not_ws c Hc). reflexivity.
  - rewrite first_match_digit by exact Hc. change (c :: a ++ rest) with ((c :: a) ++ rest).
    unfold m_float, m_integer, m_plus. rewrite (digits_span u (c :: a) rest Ha H1).
    destruct rest as [|d rest]; [reflexivity|]. simpl in H2. rewrite H2. reflexivity.
Qed.

Lemma lexes_decimal u v rest ts : decimal_text v -> head_not (is_digit u) rest -> lexes u rest ts ->
  lexes u (v ++ rest) ((TFloat, v) :: ts).
Proof.
  intros [a [b [-> [Ha Hb]]]] H1 Hl. destruct a as [|c a]; [discriminate|]. unfold all_digits in Ha.
  assert (Hn : nows ((c :: a) ++ c_dot :: b) = true).
  { unfold nows. rewrite forallb_app. apply nows_digits in Ha. unfold nows in Ha. rewrite Ha. simpl.
    apply nows_digits in Hb. exact Hb. }
  rewrite <- (trim_nows _ Hn) at 2.
  pose proof Ha as Hc. simpl in Hc. apply andb_prop in Hc as [Hc _].
  apply (lexes_token u c ((a ++ c_dot :: b) ++ rest) TFloat ((c :: a) ++ c_dot :: b) rest ts); try discriminate; [| |exact Hl].
  - unfold is_blank. rewrite (ascii_digit_not_ws c Hc). reflexivity.
  - rewrite first_match_digit by exact Hc.
    replace (c :: (a ++ c_dot :: b) ++ rest) with ((c :: a) ++ c_dot :: b ++ rest)
      by (simpl; rewrite <- app_assoc; reflexivity).
    unfold m_float. rewrite (digits_span u (c :: a) (c_dot :: b ++ rest) Ha) by reflexivity.
    simpl. rewrite (digits_span u b rest Hb H1). reflexivity.
Qed.

(** ** References *)
Lemma ident_parts u s : ident u s = true -> exists c b d,
  s = (c :: b) ++ d /\ forallb (ref_char u) (c :: b) = true /\ (d = [] \/ d = [c_dot])
  /\ is_digit u c = false /\ starts_with (lit "use") s = false
  /\ starts_with (lit "true") s = false /\ starts_with (lit "false") s = false.
Proof.
  unfold ident. destruct s as [|c s]; [discriminate|]. intro H.
  apply andb_prop in H as [H Hfalse]. apply andb_prop in H as [H Htrue]. apply andb_prop in H as [H Huse].
  apply andb_prop in H as [Hd Hb]. apply negb_true_iff in Hfalse, Htrue, Huse, Hd.
  destruct (rev (c :: s)) as [|x r] eqn:Er.
  { apply (f_equal (@rev N)) in Er. rewrite rev_involutive in Er. discriminate. }
  assert (Es : c :: s = rev r ++ [x]).
  { rewrite <- (rev_involutive (c :: s)), Er. reflexivity. }
  destruct (N.eqb_spec x c_dot) as [->|Hx].
  - destruct (rev r) as [|c' b] eqn:Er2; [discriminate|].
    simpl in Es. inversion Es; subst c'. exists c, b, [c_dot]. rewrite <- Es. simpl. subst s. repeat split; auto.
  - exists c, s, []. rewrite app_nil_r. repeat split; auto.
Qed.

(** A literal made of reference characters is not a prefix of [x ++ rest] if it is not one of [x]. *)
Lemma strip_prefix_ref u p : forall x rest, forallb (ref_char u) p = true ->
  starts_with p x = false -> head_not (ref_char u) rest -> strip_prefix p (x ++ rest) = None.
Proof.
  unfold starts_with. induction p as [|y p IH]; intros x rest Hp Hs Hr; [discriminate|].
  simpl in Hp. apply andb_prop in Hp as [Hy Hp].
  destruct x as [|z x]; simpl.
  - destruct rest as [|z rest]; [reflexivity|]. simpl in Hr.
    destruct (N.eqb_spec y z); [congruence|reflexivity].
  - simpl in Hs. destruct (N.eqb y z); [|reflexivity]. apply IH; auto.
Qed.

Lemma first_match_ident u s rest : ident u s = true -> s <> lit "fn" -> delim rest = true ->
  first_match (matchers_ordered u) (s ++ rest) = Some (TReference, s, rest).
Proof.
  intros Hi Hfn Hd. destruct (ident_parts u s Hi) as [c [b [d [Es [Hb [Hdd [Hdig [Huse [Htrue Hfalse]]]]]]]]].
  pose proof Hb as Hc. simpl in Hc. apply andb_prop in Hc as [Hc _].
  assert (Hne : forall x : N, ref_char u x = false -> x <> c) by (intros x Hx ->; congruence).
  assert (Esr : s ++ rest = c :: (b ++ d ++ rest)) by (subst s; simpl; rewrite <- !app_assoc; reflexivity).
  assert (Hlit : forall x p, ref_char u x = false -> m_lit (x :: p) (s ++ rest) = None).
  { intros x p Hx. rewrite Esr. apply m_lit_ne. auto. }
  assert (Hkw : forall p, forallb (ref_char u) p = true -> starts_with p s = false -> m_lit p (s ++ rest) = None).
  { intros p Hp Hs. unfold m_lit. rewrite (strip_prefix_ref u p s rest Hp Hs (delim_not_ref u rest Hd)). reflexivity. }
  unfold matchers_ordered. cbn [first_match].
  unfold m_newline. rewrite Hlit by reflexivity.
  assert (E1 : m_comment (s ++ rest) = None).
  { rewrite Esr. unfold m_comment. replace (c =? c_hash)%N with false; [reflexivity|].
    symmetry. apply N.eqb_neq. intro X. apply (Hne c_hash); [reflexivity|auto]. }
  assert (E2 : m_dq (s ++ rest) = None).
  { rewrite Esr. unfold m_dq. replace (c =? c_dquote)%N with false; [reflexivity|].
    symmetry. apply N.eqb_neq. intro X. apply (Hne c_dquote); [reflexivity|auto]. }
  assert (E3 : m_fn (s ++ rest) = None).
  { unfold m_fn. destruct (strip_prefix (lit "fn") (s ++ rest)) as [r|] eqn:E; [|reflexivity].
    apply strip_prefix_spec in E. simpl in E.
    destruct s as [|c1 s1]; [discriminate|]. simpl in E. inversion E as [[X1 X2]]. subst c1.
    destruct s1 as [|c2 s2].
    { simpl in X2. subst rest. discriminate. }
    simpl in X2. inversion X2 as [[X3 X4]]. subst c2.
    destruct s2 as [|c3 s3].
    { exfalso. apply Hfn. reflexivity. }
    simpl. 
    assert (Hc3 : is_ws c3 = false).
    { assert (Hin : In c3 ((c :: b) ++ d)) by (rewrite <- Es; simpl; auto).
      apply in_app_or in Hin as [Hin|Hin].
      - rewrite forallb_forall in Hb. apply (ref_not_ws u). auto.
      - destruct Hdd as [->| ->]; [contradiction|]. destruct Hin as [<-|[]]. reflexivity. }
    rewrite Hc3. reflexivity. }
  rewrite E1, E2, E3. rewrite (Hkw (lit "use")) by (reflexivity || assumption).
  assert (E4 : m_lit (lit ":=") (s ++ rest) = None).
  { unfold m_lit. destruct (strip_prefix (lit ":=") (s ++ rest)) as [r|] eqn:E; [|reflexivity].
    apply strip_prefix_spec in E. simpl in E. exfalso.
    destruct s as [|c1 s1]; [discriminate|]. simpl in E. inversion E as [[X1 X2]]. subst c1.
    destruct s1 as [|c2 s2].
    { simpl in X2. subst rest. discriminate. }
    simpl in X2. inversion X2 as [[X3 X4]]. subst c2.
    assert (Hin : In 61%N ((c :: b) ++ d)) by (rewrite <- Es; simpl; auto).
    apply in_app_or in Hin as [Hin|Hin].
    - rewrite forallb_forall in Hb. apply Hb in Hin. discriminate.
    - destruct Hdd as [->| ->]; [contradiction|]. destruct Hin as [X|[]]. discriminate. }
  rewrite E4.
  unfold m_operator, operators, m_alt. simpl lit.
  repeat (rewrite Hlit by reflexivity).
  assert (Hsp : span (is_digit u) (s ++ rest) = ([], s ++ rest)).
  { rewrite Esr. simpl. rewrite Hdig. reflexivity. }
  unfold m_float, m_integer, m_plus. rewrite Hsp.
  rewrite (Hkw [116%N; 114%N; 117%N; 101%N]) by (reflexivity || assumption).
  rewrite (Hkw [102%N; 97%N; 108%N; 115%N; 101%N]) by (reflexivity || assumption).
  unfold m_reference. subst s. rewrite <- app_assoc.
  rewrite span_app; [|exact Hb|].
  2:{ destruct Hdd as [->| ->]; [apply (delim_not_ref u); exact Hd|reflexivity]. }
  destruct Hdd as [->| ->]; simpl.
  - rewrite app_nil_r. destruct rest as [|d rest]; [reflexivity|].
    pose proof (delim_not_dot _ Hd) as X. simpl in X. rewrite X. reflexivity.
  - reflexivity.
Qed.

Lemma ident_nows u s : ident u s = true -> nows s = true.
Proof.
  intro Hi. destruct (ident_parts u s Hi) as [c [b [d [-> [Hb [Hdd _]]]]]].
  unfold nows. rewrite forallb_app. apply andb_true_intro. split.
  - rewrite forallb_forall in *. intros x Hx. apply negb_true_iff. apply (ref_not_ws u). auto.
  - destruct Hdd as [->| ->]; reflexivity.
Qed.

Lemma lexes_ident u s rest ts : ident u s = true -> s <> lit "fn" -> delim rest = true ->
  lexes u rest ts -> lexes u (s ++ rest) ((TReference, s) :: ts).
Proof.
  intros Hi Hfn Hd Hl. pose proof (first_match_ident u s rest Hi Hfn Hd) as Hm.
  pose proof (ident_nows u s Hi) as Hn.
  rewrite <- (trim_nows s Hn) at 2.
  destruct s as [|c s]; [discriminate|]. simpl.
  apply (lexes_token u c (s ++ rest) TReference (c :: s) rest ts); try discriminate; [|exact Hm|exact Hl].
  unfold is_blank. simpl in Hn. apply andb_prop in Hn as [Hn _]. apply negb_true_iff in Hn. rewrite Hn. reflexivity.
Qed.

(** ** Strings *)
Definition double_quotes (s : str) : str :=
  concat (map (fun c => if (c =? c_dquote)%N then [c; c] else [c]) s).
Lemma dq_loop_doubled rest : head_not (fun c => c =? c_dquote)%N rest -> forall t acc last,
  m_dq_loop (double_quotes t ++ c_dquote :: rest) acc last
  = Some (rev acc ++ double_quotes t ++ [c_dquote], rest).
Proof.
  intro Hr. induction t as [|c t IH]; intros acc last.
  - simpl. destruct rest as [|d rest]; [reflexivity|]. simpl in Hr. rewrite Hr. reflexivity.
  - unfold double_quotes in *. simpl. destruct (N.eqb_spec c c_dquote) as [->|Hc].
    + simpl. rewrite IH. simpl. rewrite <- !app_assoc. reflexivity.
    + simpl. apply N.eqb_neq in Hc. rewrite Hc. rewrite IH. simpl. rewrite <- app_assoc. reflexivity.
Qed.

Lemma lexes_string u t rest ts : head_not (fun c => c =? c_dquote)%N rest -> lexes u rest ts ->
  lexes u (([c_dquote] ++ double_quotes t ++ [c_dquote]) ++ rest)
          ((TDoubleQuotedString, [c_dquote] ++ double_quotes t ++ [c_dquote]) :: ts).
Proof.
  intros Hr Hl. simpl.
  rewrite <- (trim_ends c_dquote (double_quotes t) c_dquote) by reflexivity.
  apply (lexes_token u c_dquote ((double_quotes t ++ [c_dquote]) ++ rest) TDoubleQuotedString
           (c_dquote :: double_quotes t ++ [c_dquote]) rest ts); try discriminate; [reflexivity| |exact Hl].
  unfold matchers_ordered. cbn [first_match].
  change (m_newline (c_dquote :: (double_quotes t ++ [c_dquote]) ++ rest)) with (@None (str * str)).
  change (m_comment (c_dquote :: (double_quotes t ++ [c_dquote]) ++ rest)) with (@None (str * str)).
  cbv iota. unfold m_dq. change (c_dquote =? c_dquote)%N with true. cbv iota.
  rewrite <- app_assoc. cbn [app]. rewrite dq_loop_doubled by exact Hr. reflexivity.
Qed.

Lemma double_quotes_plain t : forallb (fun c => negb (c =? c_dquote)%N) t = true -> double_quotes t = t.
Proof.
  induction t as [|c t IH]; simpl; intro H; [reflexivity|]. apply andb_prop in H as [H1 H2].
  apply negb_true_iff in H1. unfold double_quotes in *. simpl. rewrite H1. simpl. rewrite IH by exact H2. reflexivity.
Qed.

Lemma unquote_doubled : forall t acc,
  unquote_loop (double_quotes t ++ [c_dquote]) true false acc = inr (rev acc ++ t).
Proof.
  unfold double_quotes.
  induction t as [|c t IH]; intro acc; simpl.
  - rewrite app_nil_r. reflexivity.
  - destruct (N.eqb_spec c c_dquote) as [->|Hc]; simpl.
    + rewrite IH. simpl. rewrite <- app_assoc. reflexivity.
    + apply N.eqb_neq in Hc. rewrite Hc. rewrite IH. simpl. rewrite <- app_assoc. reflexivity.
Qed.

(** ** A printed tree *)
Lemma lexes_sign u s rest ts : lexes u rest ts -> lexes u (show_sign s ++ rest) (sign_toks s ++ ts).
Proof. intro H. destruct s as [[]|]; simpl; [apply lexes_minus|apply lexes_plus|]; exact H. Qed.
Lemma lexes_pct u p rest ts : lexes u rest ts -> lexes u (show_pct p ++ rest) (pct_toks p ++ ts).
Proof. intro H. destruct p; simpl; [apply lexes_percent|]; exact H. Qed.
Lemma delim_pct p rest : delim rest = true -> delim (show_pct p ++ rest) = true.
Proof. intro H. destruct p; simpl; auto. Qed.

Theorem lexes_show o n : printable o n -> forall rest ts, delim rest = true ->
  lexes (o_unicode o) rest ts -> lexes (o_unicode o) (show n ++ rest) (toks_of n ++ ts).
Proof.
  intro Hp. set (u := o_unicode o).
  induction Hp using printable_induction; intros rest ts Hd Hl; cbn [show toks_of].
  - apply lexes_ident; auto; destruct b; try reflexivity; discriminate.
  - rewrite <- !app_assoc. apply lexes_sign. rewrite dec_all_digits.
    apply (lexes_integer u (dec n) (show_pct p ++ rest)).
    + apply dec_all_digits.
    + apply delim_not_digit. apply delim_pct. exact Hd.
    + apply delim_not_dot. apply delim_pct. exact Hd.
    + apply lexes_pct. exact Hl.
  - rewrite <- !app_assoc. apply lexes_sign. rewrite (decimal_not_digits v H).
    apply (lexes_decimal u v (show_pct p ++ rest)); [exact H| |].
    + apply delim_not_digit. apply delim_pct. exact Hd.
    + apply lexes_pct. exact Hl.
  - rewrite <- !app_assoc. apply lexes_sign.
    rewrite show_Z_nonneg by lia.
    apply (lexes_integer u (dec (Z.to_N v)) (show_pct p ++ rest)).
    + apply dec_all_digits.
    + apply delim_not_digit. apply delim_pct. exact Hd.
    + apply delim_not_dot. apply delim_pct. exact Hd.
    + apply lexes_pct. exact Hl.
  - apply lexes_ident; auto.
  - pose proof (lexes_string u t rest ts) as X. rewrite double_quotes_plain in X by assumption.
    apply X; [|exact Hl]. destruct rest as [|c rest]; [exact I|].
    apply delim_head in Hd as [->|[->|[->|[->|[->| ->]]]]]; reflexivity.
  - rewrite <- !app_assoc. simpl.
    apply lexes_ident; auto. apply lexes_open. rewrite <- app_assoc.
    assert (Hend : lexes u (lit ")" ++ rest) ((TCloseParen, lit ")") :: ts)) by (apply lexes_close; exact Hl).
    clear H H0. induction args as [|a args IH]; [exact Hend|].
    inversion H1; subst. inversion H2; subst.
    destruct args as [|b args].
    + cbn [map join sep_toks]. apply H5; [reflexivity|exact Hend].
    + cbn [map join sep_toks]. rewrite <- !app_assoc.
      apply H5; [reflexivity|]. apply lexes_comma. apply lexes_space. apply IH; assumption.
  - rewrite <- !app_assoc. simpl. apply lexes_open. rewrite <- !app_assoc.
    apply IHHp1; [reflexivity|]. apply lexes_space. simpl. apply lexes_op; [assumption|].
    rewrite <- app_assoc. apply IHHp2; [reflexivity|]. apply lexes_close. exact Hl.
Qed.

(** ** Text-level reading *)
Lemma strip_eq_none c r : c <> c_eq -> strip_prefix [c_eq] (c :: r) = None.
Proof. intro H. cbn [strip_prefix]. destruct (N.eqb_spec c_eq c); [congruence|reflexivity]. Qed.
Lemma no_eq_printable o n rest : printable o n -> strip_prefix [c_eq] (show n ++ rest) = None.
Proof.
  intro H.
  assert (Hid : forall s x, ident (o_unicode o) s = true -> strip_prefix [c_eq] (s ++ x) = None).
  { intros s x Hi. destruct (ident_parts _ s Hi) as [c [b [d [-> [Hb _]]]]]. simpl.
    apply strip_eq_none. intros ->. simpl in Hb. discriminate. }
  assert (Hnum : forall s v x, (exists c r, v = c :: r /\ is_ascii_digit c = true) ->
      strip_prefix [c_eq] ((show_sign s ++ v) ++ x) = None).
  { intros s v x [c [r [-> Hc]]]. destruct s as [[]|]; try reflexivity. simpl.
    apply strip_eq_none. intros ->. discriminate. }
  assert (Hdec : forall k, exists c r, dec k = c :: r /\ is_ascii_digit c = true).
  { intro k. pose proof (dec_all_digits k) as X. destruct (dec k) as [|c r]; [discriminate|].
    exists c, r. split; [reflexivity|]. unfold all_digits in X. simpl in X. apply andb_prop in X. tauto. }
  inversion H; subst; cbn [show].
  - destruct b; reflexivity.
  - rewrite app_assoc, <- app_assoc. apply Hnum. apply Hdec.
  - rewrite app_assoc, <- app_assoc. apply Hnum. destruct H0 as [a [b [-> [Ha _]]]].
    destruct a as [|c a]; [discriminate|]. exists c, (a ++ c_dot :: b). split; [reflexivity|].
    unfold all_digits in Ha. simpl in Ha. apply andb_prop in Ha. tauto.
  - rewrite show_Z_nonneg by lia. rewrite app_assoc, <- app_assoc. apply Hnum. apply Hdec.
  - apply Hid. assumption.
  - reflexivity.
  - rewrite <- app_assoc. apply Hid. assumption.
  - reflexivity.
Qed.

Lemma formula_text_eq s : formula_text (c_eq :: s) = s.
Proof. reflexivity. Qed.

(** If the text lexes to tokens the parser reads completely, [ast_parse] gives the tree. *)
Lemma ast_parse_reads o sg s ts e :
  lexes (o_unicode o) (formula_text s) ts -> runs_expr o sg 0 ts (Ok (e, [])) ->
  ast_parse o sg s = Ok e.
Proof.
  intros Hl Hr. destruct (ast_lex_complete _ _ _ Hl) as [lx [E1 E2]].
  unfold ast_parse. rewrite E1, E2. rewrite (runs_expr_fuel o sg 0 ts _ Hr). reflexivity.
Qed.

Theorem parse_show o sg n : printable o n ->
  ast_parse o sg (show n) = Ok (canonical n) /\ ast_parse o sg (c_eq :: show n) = Ok (canonical n).
Proof.
  intro Hp.
  assert (Hl : lexes (o_unicode o) (show n) (toks_of n)).
  { rewrite <- (app_nil_r (show n)), <- (app_nil_r (toks_of n)). apply lexes_show; auto. apply lx_end. reflexivity. }
  assert (Hr : runs_expr o sg 0 (toks_of n) (Ok (canonical n, []))).
  { rewrite <- (app_nil_r (toks_of n)). apply read_back; auto; [lia|left; reflexivity|]. apply st_stop. reflexivity. }
  split; eapply ast_parse_reads; eauto.
  unfold formula_text. rewrite <- (app_nil_r (show n)), no_eq_printable with (o := o) by assumption.
  rewrite app_nil_r. exact Hl.
Qed.

Lemma show_canonical o n : printable o n -> show (canonical n) = show n.
Proof.
  intro Hp. induction Hp using printable_induction; cbn [canonical show]; auto.
  - unfold whole_text. rewrite dec_all_digits. cbn [show]. rewrite dec_value.
    rewrite show_Z_nonneg by lia. rewrite N2Z.id. reflexivity.
  - unfold whole_text. rewrite (decimal_not_digits v H). reflexivity.
  - rewrite map_map. replace (map (fun x => show (canonical x)) args) with (map show args); [reflexivity|]. symmetry. apply map_ext_in. rewrite Forall_forall in H2. auto.
  - rewrite IHHp1, IHHp2. reflexivity.
Qed.

(** ** Chains *)
Lemma lexes_chain o c : chain_ok o c -> right_grouped c -> forall rest ts, delim rest = true ->
  lexes (o_unicode o) rest ts -> lexes (o_unicode o) (chain_text c ++ rest) (chain_toks c ++ ts).
Proof.
  induction c as [n|l IHl op r IHr]; cbn [chain_text chain_toks chain_ok right_grouped]; intros Hok Hg rest ts Hd Hl.
  - apply lexes_show; auto.
  - destruct Hok as [Hokl Hokr]. destruct Hg as [Hgl [Hgr [Hin _]]].
    rewrite <- !app_assoc. apply IHl; auto. simpl. apply lexes_space. apply lexes_op; auto.
Qed.
Lemma chain_no_eq o c rest : chain_ok o c -> strip_prefix [c_eq] (chain_text c ++ rest) = None.
Proof.
  revert rest. induction c as [n|l IHl op r IHr]; cbn [chain_text chain_ok]; intros rest H.
  - eapply no_eq_printable; eauto.
  - rewrite <- !app_assoc. apply IHl. tauto.
Qed.
Theorem parse_chain o sg c : chain_ok o c -> right_grouped c ->
  ast_parse o sg (chain_text c) = Ok (chain_tree c).
Proof.
  intros Hok Hg. eapply ast_parse_reads.
  - unfold formula_text. rewrite <- (app_nil_r (chain_text c)), chain_no_eq with (o := o) by assumption.
    eapply lexes_chain with (ts := []); eauto. apply lx_end. reflexivity.
  - apply read_chain; auto; [lia|lia|left; reflexivity|]. apply st_stop. reflexivity.
Qed.
