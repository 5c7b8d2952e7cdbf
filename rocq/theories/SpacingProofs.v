(** * SpacingProofs: laid out words are read as these words. *)
From Coq Require Import ZifyBool ZifyN.
From Verif Require Import Base BaseProofs Csvp Ast AstProofs AstLexer AstParser FormulaSpec AstLexerProofs FormulaText CodeSectionProofs SpacingSpec.

Definition word_tok (w : word) : tok :=
  match w with
  | WName s => (TReference, s) | WInt s => (TInteger, s) | WDec s => (TFloat, s)
  | WBool b => (TBoolean, if b then lit "true" else lit "false")
  | WText t => (TDoubleQuotedString, quoted_text t)
  | WOp s => (TOperator, s) | WOpen => (TOpenParen, lit "(") | WClose => (TCloseParen, lit ")") | WComma => (TComma, lit ",")
  | WAssign => (TVarAssign, lit ":=") | WUse => (TUseModule, lit "use") | WFn => (TFunctionDefinition, lit "fn")
  end.
Lemma lexes_blank_char u c s ts : is_blank c = true -> lexes u s ts -> lexes u (c :: s) ts.
Proof.
  intros Hc H. inversion H; subst.
  - apply lx_end. cbn [forallb]. rewrite (is_blank_ws c Hc). assumption.
  - eapply lx_tok with (ws := c :: ws); [|eassumption|assumption]. cbn [span]. rewrite Hc, H0. reflexivity.
Qed.
Lemma lexes_ws u c s ts : is_ws c = true -> c <> c_cr -> lexes u s ts -> lexes u (c :: s) ts.
Proof.
  intros Hc Hn H. destruct (N.eqb_spec c c_nl) as [->|N]; [apply lexes_nl; exact H|]. apply lexes_blank_char; [|exact H].
  unfold is_blank. rewrite Hc. apply N.eqb_neq in N, Hn. rewrite N, Hn. reflexivity.
Qed.
Lemma lexes_comment u t s ts : ~ In c_nl t -> lexes u s ts -> lexes u (c_hash :: t ++ c_nl :: s) ts.
Proof.
  intros N H. change ts with (emit TComment (c_hash :: t) ts). eapply lx_tok with (ws := []) (m := c_hash :: t) (rest := c_nl :: s); [reflexivity| |apply lexes_nl; exact H].
  unfold matchers_ordered. cbn [first_match]. change (m_newline (c_hash :: t ++ c_nl :: s)) with (@None (str * str)). cbv iota.
  unfold m_comment. change (c_hash =? c_hash)%N with true. cbv iota.
  rewrite (span_app (fun x => negb (x =? c_nl)%N) t (c_nl :: s)); [reflexivity| |reflexivity].
  apply forallb_forall. intros x Hx. apply negb_true_iff. apply N.eqb_neq. intros ->. contradiction.
Qed.
Lemma lexes_gap u g : space g -> forall s ts, lexes u s ts -> lexes u (g ++ s) ts.
Proof.
  induction 1 as [|c g Hc Hn _ IH|t g Hn _ IH]; intros s ts H; [exact H|apply lexes_ws; auto|]. cbn [app]. rewrite <- app_assoc. cbn [app]. apply lexes_comment; auto.
Qed.
Lemma first_match_name u s rest : ident u s = true -> s <> lit "fn" -> s <> lit ":" -> head_not (ref_char u) rest -> head_not (fun c => c =? c_dot)%N rest ->
  first_match (matchers_ordered u) (s ++ rest) = Some (TReference, s, rest).
Proof.
  intros Hi Hfn Hco Hd Hdot. destruct (ident_parts u s Hi) as [c [b [d [Es [Hb [Hdd [Hdig [Huse [Htrue Hfalse]]]]]]]]].
  pose proof Hb as Hc. simpl in Hc. apply andb_prop in Hc as [Hc _].
  assert (Hne : forall x : N, ref_char u x = false -> x <> c) by (intros x Hx ->; congruence).
  assert (Esr : s ++ rest = c :: (b ++ d ++ rest)) by (subst s; simpl; rewrite <- !app_assoc; reflexivity).
  assert (Hlit : forall x p, ref_char u x = false -> m_lit (x :: p) (s ++ rest) = None).
  { intros x p Hx. rewrite Esr. apply m_lit_ne. auto. }
  assert (Hkw : forall p, forallb (ref_char u) p = true -> starts_with p s = false -> m_lit p (s ++ rest) = None).
  { intros p Hp Hs. unfold m_lit. rewrite (strip_prefix_ref u p s rest Hp Hs Hd). reflexivity. }
  unfold matchers_ordered. cbn [first_match].
  unfold m_newline. rewrite Hlit by reflexivity.
  assert (E1 : m_comment (s ++ rest) = None).
  { rewrite Esr. unfold m_comment. replace (c =? c_hash)%N with false; [reflexivity|].
    symmetry. apply N.eqb_neq. intro X. apply (Hne c_hash); [reflexivity|auto]. }
  assert (E2 : m_dq (s ++ rest) = None).
  { rewrite Esr. unfold m_dq. replace (c =? c_dquote)%N with false; [reflexivity|].
    symmetry. apply N.eqb_neq. intro X. apply (Hne c_dquote); [reflexivity|auto]. }
  assert (E3 : m_fn (s ++ rest) = None).
  { unfold m_fn. destruct (strip_prefix (lit "fn") (s ++ rest)) as [r|] eqn:E; [|reflexivity].
    apply strip_prefix_spec in E. simpl in E.
    destruct s as [|c1 s1]; [discriminate|]. simpl in E. inversion E as [[X1 X2]]. subst c1.
    destruct s1 as [|c2 s2].
    { simpl in X2. subst rest. discriminate Hd. }
    simpl in X2. inversion X2 as [[X3 X4]]. subst c2.
    destruct s2 as [|c3 s3].
    { exfalso. apply Hfn. reflexivity. }
    simpl. 
    assert (Hc3 : is_ws c3 = false).
    { assert (Hin : In c3 ((c :: b) ++ d)) by (rewrite <- Es; simpl; auto).
      apply in_app_or in Hin as [Hin|Hin].
      - rewrite forallb_forall in Hb. apply (ref_not_ws u). auto.
      - destruct Hdd as [->| ->]; [contradiction|]. destruct Hin as [<-|[]]. reflexivity. }
    rewrite Hc3. reflexivity. }
  rewrite E1, E2, E3. rewrite (Hkw (lit "use")) by (reflexivity || assumption).
  assert (E4 : m_lit (lit ":=") (s ++ rest) = None).
  { unfold m_lit. destruct (strip_prefix (lit ":=") (s ++ rest)) as [r|] eqn:E; [|reflexivity].
    apply strip_prefix_spec in E. simpl in E. exfalso.
    destruct s as [|c1 s1]; [discriminate|]. simpl in E. inversion E as [[X1 X2]]. subst c1.
    destruct s1 as [|c2 s2].
    { apply Hco. reflexivity. }
    simpl in X2. inversion X2 as [[X3 X4]]. subst c2.
    assert (Hin : In 61%N ((c :: b) ++ d)) by (rewrite <- Es; simpl; auto).
    apply in_app_or in Hin as [Hin|Hin].
    - rewrite forallb_forall in Hb. apply Hb in Hin. discriminate.
    - destruct Hdd as [->| ->]; [contradiction|]. destruct Hin as [X|[]]. discriminate. }
  rewrite E4.
  unfold m_operator, operators, m_alt. simpl lit.
  repeat (rewrite Hlit by reflexivity).
  assert (Hsp : span (is_digit u) (s ++ rest) = ([], s ++ rest)).
  { rewrite Esr. simpl. rewrite Hdig. reflexivity. }
  unfold m_float, m_integer, m_plus. rewrite Hsp.
  rewrite (Hkw [116%N; 114%N; 117%N; 101%N]) by (reflexivity || assumption).
  rewrite (Hkw [102%N; 97%N; 108%N; 115%N; 101%N]) by (reflexivity || assumption).
  unfold m_reference. subst s. rewrite <- app_assoc.
  rewrite span_app; [|exact Hb|].
  2:{ destruct Hdd as [->| ->]; [exact Hd|reflexivity]. }
  destruct Hdd as [->| ->]; simpl.
  - rewrite app_nil_r. destruct rest as [|d rest]; [reflexivity|]. simpl in Hdot. rewrite Hdot. reflexivity.
  - reflexivity.
Qed.
Lemma lexes_name u s rest ts : ident u s = true -> s <> lit "fn" -> s <> lit ":" -> head_not (ref_char u) rest -> head_not (fun c => c =? c_dot)%N rest ->
  lexes u rest ts -> lexes u (s ++ rest) ((TReference, s) :: ts).
Proof.
  intros Hi Hfn Hco Hd Hdot Hl. pose proof (first_match_name u s rest Hi Hfn Hco Hd Hdot) as Hm.
  pose proof (ident_nows u s Hi) as Hn. rewrite <- (trim_nows s Hn) at 2.
  destruct s as [|c s]; [discriminate|]. simpl.
  apply (lexes_token u c (s ++ rest) TReference (c :: s) rest ts); try discriminate; [|exact Hm|exact Hl].
  unfold is_blank. simpl in Hn. apply andb_prop in Hn as [Hn _]. apply negb_true_iff in Hn. rewrite Hn. reflexivity.
Qed.
Lemma lexes_bool u (b : bool) rest ts : lexes u rest ts -> lexes u ((if b then lit "true" else lit "false") ++ rest) ((TBoolean, if b then lit "true" else lit "false") :: ts).
Proof.
  intro H. destruct b.
  - change (lit "true") with (trim (lit "true")) at 2. change (lit "true" ++ rest) with (116%N :: (lit "rue" ++ rest)). eapply lexes_token; try discriminate; [reflexivity|reflexivity|exact H].
  - change (lit "false") with (trim (lit "false")) at 2. change (lit "false" ++ rest) with (102%N :: (lit "alse" ++ rest)). eapply lexes_token; try discriminate; [reflexivity|reflexivity|exact H].
Qed.
Lemma lexes_operator u op rest ts : word_ok u (WOp op) -> ends_before u (WOp op) rest -> lexes u rest ts -> lexes u (op ++ rest) ((TOperator, op) :: ts).
Proof.
  cbn [word_ok ends_before In]. intros Ho [E1 E2] H.
  assert (T : forall c o, op = c :: o -> is_blank c = false -> trim op = op -> first_match (matchers_ordered u) (op ++ rest) = Some (TOperator, op, rest) -> lexes u (op ++ rest) ((TOperator, op) :: ts)).
  { intros c o Eo Hc Ht Hm. rewrite <- Ht at 2. rewrite Eo in *. cbn [app] in *. eapply lexes_token; try discriminate; [exact Hc|exact Hm|exact H]. }
  destruct Ho as [<-|[<-|[<-|[<-|[<-|[<-|[<-|[<-|[<-|[<-|[<-|[<-|[<-|[]]]]]]]]]]]]]]; (eapply T; [reflexivity|reflexivity|reflexivity|]); try reflexivity.
  - specialize (E1 eq_refl). destruct rest as [|c r]; [reflexivity|]. cbn [begins_with] in E1. apply orb_false_iff in E1 as [A B]. rewrite N.eqb_sym in A. rewrite N.eqb_sym in B.
    assert (X1 : m_lit (lit "<=") (60%N :: c :: r) = None) by (change (m_lit (lit "<=") (60%N :: c :: r)) with (match (if (61 =? c)%N then Some r else None) with Some q => Some (lit "<=", q) | None => None end); rewrite A; reflexivity).
    assert (X2 : m_lit (lit "<>") (60%N :: c :: r) = None) by (change (m_lit (lit "<>") (60%N :: c :: r)) with (match (if (62 =? c)%N then Some r else None) with Some q => Some (lit "<>", q) | None => None end); rewrite B; reflexivity).
    change (lit "<" ++ c :: r) with (60%N :: c :: r). set (z := 60%N :: c :: r) in *.
    unfold matchers_ordered. cbn [first_match]. change (m_newline z) with (@None (str * str)). change (m_comment z) with (@None (str * str)). change (m_dq z) with (@None (str * str)). change (m_fn z) with (@None (str * str)).
    change (m_lit (lit "use") z) with (@None (str * str)). change (m_lit (lit ":=") z) with (@None (str * str)). change (m_lit (lit ",") z) with (@None (str * str)). change (m_lit (lit ")") z) with (@None (str * str)). change (m_lit (lit "(") z) with (@None (str * str)). cbv iota.
    unfold m_operator, operators. cbn [m_alt]. rewrite X1, X2. reflexivity.
  - specialize (E2 eq_refl). destruct rest as [|c r]; [reflexivity|]. cbn [begins_with] in E2. rewrite N.eqb_sym in E2.
    assert (X1 : m_lit (lit ">=") (62%N :: c :: r) = None) by (change (m_lit (lit ">=") (62%N :: c :: r)) with (match (if (61 =? c)%N then Some r else None) with Some q => Some (lit ">=", q) | None => None end); rewrite E2; reflexivity).
    change (lit ">" ++ c :: r) with (62%N :: c :: r). set (z := 62%N :: c :: r) in *.
    unfold matchers_ordered. cbn [first_match]. change (m_newline z) with (@None (str * str)). change (m_comment z) with (@None (str * str)). change (m_dq z) with (@None (str * str)). change (m_fn z) with (@None (str * str)).
    change (m_lit (lit "use") z) with (@None (str * str)). change (m_lit (lit ":=") z) with (@None (str * str)). change (m_lit (lit ",") z) with (@None (str * str)). change (m_lit (lit ")") z) with (@None (str * str)). change (m_lit (lit "(") z) with (@None (str * str)). cbv iota.
    unfold m_operator, operators. cbn [m_alt]. rewrite X1. reflexivity.
Qed.
(** after [fn] all white space is skipped, and what is left is still the gap and the words *)
Lemma space_rest g : space g -> exists a h, g = a ++ h /\ forallb is_ws a = true /\ space h /\ (h = [] \/ exists t, h = c_hash :: t).
Proof.
  induction 1 as [|c g Hc Hn Hg IH|t g Hn Hg IH]; [exists [], []; repeat split; auto; constructor| |].
  - destruct IH as [a [h [E [A [B D]]]]]. exists (c :: a), h. subst g. cbn [forallb]. rewrite Hc. auto.
  - exists [], (c_hash :: t ++ c_nl :: g). repeat split; [constructor; assumption|right; eauto].
Qed.
Lemma word_head u w : word_ok u w -> exists c r, word_text w = c :: r /\ is_ws c = false.
Proof.
  destruct w; cbn [word_ok word_text]; intro H; try (do 2 eexists; split; [reflexivity|reflexivity]).
  - destruct H as [H _]. pose proof (ident_nows u s H) as N. destruct s as [|c r]; [discriminate H|]. exists c, r. split; [reflexivity|]. simpl in N. apply andb_prop in N as [N _]. apply negb_true_iff in N. exact N.
  - destruct digits as [|c r]; [discriminate H|]. exists c, r. split; [reflexivity|]. unfold all_digits in H. cbn [forallb] in H. apply andb_prop in H as [H _]. apply ascii_digit_not_ws. exact H.
  - destruct H as [a [b [-> [H _]]]]. destruct a as [|c r]; [discriminate H|]. exists c, (r ++ c_dot :: b). split; [reflexivity|]. unfold all_digits in H. cbn [forallb] in H. apply andb_prop in H as [H _]. apply ascii_digit_not_ws. exact H.
  - destruct b; do 2 eexists; (split; [reflexivity|reflexivity]).
  - cbn [In] in H. repeat (destruct H as [<-|H]; [do 2 eexists; (split; [reflexivity|reflexivity])|]). destruct H.
Qed.
Lemma head_begins f rest : begins_with f rest = false -> head_not f rest.
Proof. destruct rest; [intros _; exact I|intro H; exact H]. Qed.
Lemma lexes_last u t : ~ In c_nl t -> lexes u (c_hash :: t) [].
Proof.
  intro N. change (@nil tok) with (emit TComment (c_hash :: t) []). eapply lx_tok with (ws := []) (m := c_hash :: t) (rest := []); [reflexivity| |apply lx_end; reflexivity].
  unfold matchers_ordered. cbn [first_match]. change (m_newline (c_hash :: t)) with (@None (str * str)). cbv iota.
  unfold m_comment. change (c_hash =? c_hash)%N with true. cbv iota.
  pose proof (span_app (fun x => negb (x =? c_nl)%N) t []) as S. rewrite app_nil_r in S. rewrite S; [reflexivity| |exact I].
  apply forallb_forall. intros x Hx. apply negb_true_iff. apply N.eqb_neq. intros ->. contradiction.
Qed.
Theorem words_read u : forall l e g, space g -> well_spaced u l e -> lexes u (g ++ layout l e) (map (fun wg => word_tok (fst wg)) l).
Proof.
  induction l as [|[w g0] l IH]; intros e g Hg Hl.
  - cbn [layout map]. apply lexes_gap; [exact Hg|]. destruct Hl as [->|[t [-> N]]]; [apply lx_end; reflexivity|apply lexes_last; exact N].
  - apply lexes_gap; [exact Hg|]. cbn [layout map fst]. destruct Hl as [Hw [H0 [He Hl]]]. pose proof (IH e g0 H0 Hl) as R.
    assert (Nm : begins_with (fun c => ref_char u c || is_digit u c || (c =? c_dot)%N) (g0 ++ layout l e) = false -> head_not (ref_char u) (g0 ++ layout l e) /\ head_not (is_digit u) (g0 ++ layout l e) /\ head_not (fun c => c =? c_dot)%N (g0 ++ layout l e)).
    { destruct (g0 ++ layout l e) as [|c r]; [repeat split|]. cbn [begins_with head_not]. intro X. apply orb_false_iff in X as [X Y]. apply orb_false_iff in X as [X Z]. auto. }
    destruct w; cbn [word_text word_tok]; cbn [word_ok] in Hw; cbn [ends_before] in He.
    + destruct (Nm He) as [A [B C]]. destruct Hw as [W1 [W2 W3]]. apply lexes_name; assumption.
    + destruct (Nm He) as [A [B C]]. apply lexes_integer; assumption.
    + destruct (Nm He) as [A [B C]]. apply lexes_decimal; assumption.
    + apply lexes_bool. exact R.
    + apply lexes_string; [apply head_begins; exact He|exact R].
    + apply lexes_operator; assumption.
    + apply lexes_open. exact R.
    + apply lexes_close. exact R.
    + apply lexes_comma. exact R.
    + apply lexes_assign. exact R.
    + apply lexes_use. exact R.
    + destruct (space_rest g0 H0) as [a [h [-> [A [B D]]]]]. assert (Hh : head_not is_ws (h ++ layout l e)).
      { destruct D as [->|[t ->]]; [|reflexivity]. cbn [app]. destruct l as [|[w g1] l]; [destruct Hl as [->|[t [-> _]]]; [exact I|reflexivity]|]. cbn [layout]. destruct Hl as [Hw1 _]. destruct (word_head u w Hw1) as [c [r [-> Hc]]]. exact Hc. }
      assert (Rh : lexes u (h ++ layout l e) (map (fun wg => word_tok (fst wg)) l)) by (apply IH; assumption).
      rewrite <- app_assoc in *. destruct a as [|c a]; [cbn [app] in He; destruct (h ++ layout l e) as [|c r]; [discriminate He|cbn [begins_with head_not] in *; congruence]|].
      assert (Tr : trim (lit "fn" ++ c :: a) = lit "fn").
      { unfold trim. change (trim_start (lit "fn" ++ c :: a)) with (lit "fn" ++ c :: a). unfold trim_end. rewrite rev_app_distr. rewrite trim_start_app_ws; [reflexivity|].
        rewrite forallb_forall in *. intros x Hx. apply A. apply in_rev. exact Hx. }
      rewrite <- Tr at 2. change (lit "fn" ++ ((c :: a) ++ h ++ layout l e)) with (102%N :: (110%N :: (c :: a) ++ h ++ layout l e)).
      eapply lexes_token; try discriminate; [reflexivity| |exact Rh].
      unfold matchers_ordered. cbn [first_match].
      change (102%N :: 110%N :: (c :: a) ++ h ++ layout l e) with (lit "fn" ++ ((c :: a) ++ h ++ layout l e)).
      unfold m_fn. rewrite strip_prefix_app. rewrite (span_app is_ws (c :: a) (h ++ layout l e) A Hh). reflexivity.
Qed.
Corollary spells_read u ws text : spells u ws text -> lexes u text (map word_tok ws).
Proof. intros [g [l [e [-> [Hg [Hl ->]]]]]]. rewrite map_map. apply words_read; assumption. Qed.
