(** * PropPanic: exactly when reading a formula or code section panics (C48). *)
From Verif Require Import Base BaseProofs Csvp Ast AstLexer AstLexerProofs AstParser AstParserProofs FormulaSpec FormulaInv CodeSectionProofs PanicSpec PropFormula.

Lemma m_alt_none ps s : m_alt ps s = None <-> Forall (fun p => strip_prefix p s = None) ps.
Proof.
  induction ps as [|p ps IH]; cbn [m_alt]; [split; auto|]. unfold m_lit at 1. rewrite Forall_cons_iff, <- IH. destruct (strip_prefix p s); split; try (intros [? ?]); try discriminate; auto.
Qed.
Lemma dq_none r acc last : m_dq_loop r acc last = None <-> last = None /\ ~ In c_dquote r.
Proof.
  assert (G : forall n r acc last, length r <= n -> (m_dq_loop r acc last = None <-> last = None /\ ~ In c_dquote r)); [|apply (G (length r)); lia].
  clear. induction n as [|n IH]; intros r acc last L; destruct r as [|c r]; cbn [m_dq_loop length] in *; try lia; try (split; [intros ->; auto|tauto]).
  destruct (N.eqb_spec c c_dquote) as [->|N].
  - split; [|intros [_ X]; exfalso; apply X; left; reflexivity]. destruct r as [|c' r']; [discriminate|]. cbn [length] in L. destruct (c' =? c_dquote)%N; [|discriminate]. rewrite IH by lia. intros [H _]. discriminate H.
  - rewrite IH by lia. split; intros [H1 H2]; (split; [exact H1|]); intro X; apply H2; [destruct X as [X|X]; [contradiction|exact X]|right; exact X].
Qed.
Lemma lit1 p s : strip_prefix [p] s = None <-> match s with c :: _ => c <> p | [] => True end.
Proof.
  destruct s as [|c s]; cbn [strip_prefix]; [split; auto|]. destruct (N.eqb_spec p c) as [->|N]; split; try discriminate; try contradiction; auto; congruence.
Qed.
Lemma strip_more p q s : strip_prefix [p] s = None -> strip_prefix (p :: q) s = None.
Proof. destruct s as [|c s]; cbn [strip_prefix]; [reflexivity|]. destruct (N.eqb_spec p c); [discriminate|reflexivity]. Qed.
Lemma span_none f s : fst (span f s) = [] <-> match s with c :: _ => f c = false | [] => True end.
Proof. destruct s as [|c s]; cbn [span]; [split; auto|]. destruct (f c); [|split; reflexivity]. destruct (span f s). cbn. split; discriminate. Qed.
Lemma first_match_none ms s : first_match ms s = None <-> Forall (fun tm : token * matcher => snd tm s = None) ms.
Proof. induction ms as [|[t m] ms IH]; cbn [first_match]; [split; auto|]. rewrite Forall_cons_iff, <- IH. cbn [snd]. destruct (m s) as [[a b]|]; split; try (intros [? ?]); try discriminate; auto. Qed.
Lemma lit_none p s : m_lit p s = None <-> strip_prefix p s = None.
Proof. unfold m_lit. destruct (strip_prefix p s); split; try discriminate; auto. Qed.
Lemma no_word_spec u s : first_match (matchers_ordered u) s = None <-> no_word u s.
Proof.
  destruct s as [|c r]; [split; [exact (fun _ => I)|intros _; vm_compute; reflexivity]|]. rewrite first_match_none. unfold matchers_ordered. rewrite !Forall_cons_iff. cbn [snd]. unfold m_newline, m_operator. rewrite !lit_none, m_alt_none.
  assert (One : forall p, strip_prefix [p] (c :: r) = None <-> c <> p) by (intro p; apply lit1).
  split.
  - intros (Hn & Hh & Hd & _ & _ & _ & Hc & Hcp & Hop & Ho & _ & _ & Hi & _ & _ & Hr & _). unfold operators in Ho. rewrite !Forall_cons_iff in Ho. destruct Ho as (O1 & O2 & O3 & O4 & O5 & O6 & O7 & _ & _ & _ & O8 & O9 & O10 & _).
    change (lit ",") with [44%N] in Hc. change (lit ")") with [41%N] in Hcp. change (lit "(") with [40%N] in Hop. apply One in Hn, Hc, Hcp, Hop.
    change (lit "^") with [94%N] in O1. change (lit "+") with [43%N] in O2. change (lit "-") with [45%N] in O3. change (lit "*") with [42%N] in O4. change (lit "/") with [47%N] in O5. change (lit "&") with [38%N] in O6. change (lit "%") with [37%N] in O7.
    change (lit "<") with [60%N] in O8. change (lit ">") with [62%N] in O9. change (lit "=") with [61%N] in O10. apply One in O1, O2, O3, O4, O5, O6, O7, O8, O9, O10.
    split; [|split; [|split]].
    + unfold m_comment in Hh. destruct (N.eqb_spec c c_hash) as [->|Nh]; [destruct (span _ r); discriminate Hh|].
      intro X. cbn in X. repeat (destruct X as [<-|X]; [auto; congruence|]). exact X.
    + unfold m_integer, m_plus in Hi. apply (span_none (is_digit u) (c :: r)). destruct (span (is_digit u) (c :: r)) as [[|x a] b]; [reflexivity|discriminate Hi].
    + unfold m_reference in Hr. apply (span_none (ref_char u) (c :: r)). destruct (span (ref_char u) (c :: r)) as [[|x a] [|y b]]; try reflexivity; [discriminate Hr|]. destruct (y =? c_dot)%N; discriminate Hr.
    + intros ->. unfold m_dq in Hd. rewrite N.eqb_refl in Hd. apply dq_none in Hd. apply Hd.
  - intros (Hn & Hd & Hr & Hq).
    assert (Ne : forall p, In p (c_nl :: lit "#,()^+-*/&%<>=") -> c <> p) by (intros p Hp ->; contradiction).
    assert (Nr : forall p, ref_char u p = true -> c <> p) by (intros p Hp ->; congruence).
    assert (Sp : forall p q, c <> p -> strip_prefix (p :: q) (c :: r) = None) by (intros p q N; apply strip_more, One; exact N).
    assert (Nd : forall f, f c = false -> fst (span f (c :: r)) = []) by (intros f Hf; apply span_none; exact Hf).
    pose proof (Nd _ Hd) as Sd. pose proof (Nd _ Hr) as Sr.
    repeat match goal with |- _ /\ _ => split end; try (apply Forall_nil); try (apply Sp; apply Ne; cbn; tauto).
    + unfold m_comment. destruct (N.eqb_spec c c_hash) as [->|_]; [|reflexivity]. destruct (Ne c_hash); [cbn; tauto|reflexivity].
    + unfold m_dq. destruct (N.eqb_spec c c_dquote) as [->|_]; [|reflexivity]. apply dq_none. auto.
    + unfold m_fn. change (lit "fn") with [102%N; 110%N] at 1. rewrite Sp; [reflexivity|]. apply Nr. reflexivity.
    + apply Sp, Nr. reflexivity.
    + apply Sp, Nr. reflexivity.
    + repeat apply Forall_cons; try apply Forall_nil; apply Sp; apply Ne; cbn; tauto.
    + unfold m_float. destruct (span (is_digit u) (c :: r)) as [a b]. cbn in Sd. subst a. reflexivity.
    + unfold m_integer, m_plus. destruct (span (is_digit u) (c :: r)) as [a b]. cbn in Sd. subst a. reflexivity.
    + apply Sp, Nr. reflexivity.
    + apply Sp, Nr. reflexivity.
    + unfold m_reference. destruct (span (ref_char u) (c :: r)) as [a b]. cbn in Sr. subst a. reflexivity.
Qed.
Lemma blank_is_ws s : forallb is_blank s = true -> forallb is_ws s = true.
Proof. rewrite !forallb_forall. intros H c Hc. specialize (H c Hc). unfold is_blank in H. apply andb_true_iff in H as [H _]. apply andb_true_iff in H as [H _]. exact H. Qed.
Lemma stuck_not_ws u s rest : stuck u s rest -> forallb is_ws s = false.
Proof.
  induction 1 as [b s B Nw Hd W|b s t w next rest B Hd M St IH]; rewrite forallb_app.
  - rewrite W. apply andb_false_r.
  - destruct (forallb is_ws s) eqn:Ws; [|apply andb_false_r]. exfalso. apply first_match_split in M. destruct M as [M _]. rewrite M, forallb_app, IH, andb_false_r in Ws. discriminate Ws.
Qed.
Lemma span_blank b s : forallb is_blank b = true -> match s with [] => True | c :: _ => is_blank c = false end -> span is_blank (b ++ s) = (b, s).
Proof.
  induction b as [|x b IH]; cbn [app forallb span]; intros B Hd.
  - destruct s as [|c s]; [reflexivity|]. cbn [span]. rewrite Hd. reflexivity.
  - apply andb_true_iff in B as [Bx B]. rewrite Bx, (IH B Hd). reflexivity.
Qed.
Lemma stuck_err u s rest : stuck u s rest -> forall fuel off ln acc, length s < fuel -> exists e, lex_loop fuel u s off ln acc = Err e /\ ut_input e = rest.
Proof.
  induction 1 as [b s B Nw Hd W|b s t w next rest B Hd M St IH]; intros fuel off ln acc Hf; (destruct fuel as [|fuel]; [lia|]); cbn [lex_loop]; rewrite (span_blank b s B Hd).
  - apply no_word_spec in Nw. rewrite Nw. rewrite forallb_app, W, andb_false_r. eexists. split; reflexivity.
  - rewrite M. destruct (match t with TNewline => _ | TComment => _ | _ => _ end) as [[acc' off'] ln']. rewrite (stuck_not_ws _ _ _ St). apply IH.
    apply first_match_split in M. destruct M as [M Ne]. rewrite M in Hf. rewrite !app_length in Hf. destruct w; [contradiction|]. cbn [length] in Hf. lia.
Qed.
Lemma err_stuck u : forall fuel s off ln acc e, lex_loop fuel u s off ln acc = Err e -> stuck u s (ut_input e).
Proof.
  induction fuel as [|fuel IH]; intros s off ln acc e H; [discriminate|]. cbn [lex_loop] in H. destruct (span is_blank s) as [b body] eqn:Sp. apply span_spec in Sp as [-> [B Hd]].
  destruct (first_match (matchers_ordered u) body) as [[[t w] next]|] eqn:M.
  - destruct (match t with TNewline => _ | TComment => _ | _ => _ end) as [[acc' off'] ln']. destruct (forallb is_ws next); [discriminate|]. eapply stuck_later; [exact B|exact Hd|exact M|]. eapply IH. exact H.
  - destruct (forallb is_ws (b ++ body)) eqn:W; [discriminate|]. injection H as <-. cbn [ut_input]. apply stuck_here; [exact B|apply no_word_spec; exact M|exact Hd|]. rewrite forallb_app, (blank_is_ws _ B) in W. exact W.
Qed.
Lemma after_equals_spec u s : ast_lex u s = match strip_prefix [c_eq] s with Some r => lex_loop (S (length (after_equals s))) u (after_equals s) 1 0 [] | None => lex_loop (S (length (after_equals s))) u (after_equals s) 0 0 [] end.
Proof.
  unfold ast_lex, after_equals. destruct s as [|c s]; [reflexivity|]. cbn [strip_prefix]. destruct (N.eqb_spec c_eq c) as [<-|N]; [rewrite N.eqb_refl; reflexivity|]. destruct (N.eqb_spec c c_eq); [congruence|reflexivity].
Qed.
Lemma lex_stuck u s rest : (exists e, ast_lex u s = Err e /\ ut_input e = rest) <-> stuck u (after_equals s) rest.
Proof.
  rewrite after_equals_spec. split.
  - intros [e [H <-]]. destruct (strip_prefix [c_eq] s); eapply err_stuck; exact H.
  - intro H. destruct (strip_prefix [c_eq] s); (eapply stuck_err; [exact H|lia]).
Qed.
Lemma unknown_panics {A} e : @unknown_error A e = Panic <-> uncuttable (ut_input e).
Proof.
  unfold unknown_error, uncuttable. destruct (Nat.leb_spec (utf8_len (ut_input e)) 50) as [L|L]; [split; [discriminate|lia]|].
  destruct (byte_split 50 (ut_input e)) as [[a b]|] eqn:B; split; intro H; try discriminate H; try reflexivity.
  - exfalso. apply byte_split_spec in B. apply (proj2 H). eauto.
  - split; [exact L|]. intros [a [b Q]]. apply byte_split_spec in Q. congruence.
Qed.
Lemma parse_panics_at o sg s : ast_parse o sg s = Panic <-> exists e, ast_lex (o_unicode o) s = Err e /\ uncuttable (ut_input e).
Proof.
  unfold ast_parse. destruct (ast_lex_total (o_unicode o) s) as [[lx ->]|[e ->]].
  - split; [|intros [e [H _]]; discriminate H]. intro H. exfalso. revert H. set (ts := erase (lx_tokens lx)). pose proof (proj1 (parser_total o sg (parser_fuel ts)) 0 ts) as F. unfold parser_fuel in F at 1.
    specialize (F ltac:(lia)). destruct (expr_bp (parser_fuel ts) o sg 0 ts) as [[e rest]| | |]; cbn in *; try contradiction; discriminate.
  - rewrite unknown_panics. split; [eauto|]. intros [e' [H U]]. injection H as <-. exact U.
Qed.
Lemma section_panics_at o s : code_section_parse o s = Panic <-> exists e, ast_lex (o_unicode o) s = Err e /\ uncuttable (ut_input e).
Proof.
  unfold code_section_parse. destruct (ast_lex_total (o_unicode o) s) as [[lx ->]|[e ->]].
  - split; [|intros [e [H _]]; discriminate H]. intro H. exfalso. revert H.
    destruct (parse_scope_total o (S (length (erase (lx_tokens lx)))) (erase (lx_tokens lx)) empty_scope []) as [[x ->]|[e ->]]; [lia|discriminate..].
  - rewrite unknown_panics. split; [eauto|]. intros [e' [H U]]. injection H as <-. exact U.
Qed.
Lemma at_panics u s : (exists e, ast_lex u s = Err e /\ uncuttable (ut_input e)) <-> panics_on u s.
Proof.
  unfold panics_on. split.
  - intros [e [H U]]. exists (ut_input e). split; [apply lex_stuck; eauto|exact U].
  - intros [rest [St U]]. apply lex_stuck in St as [e [H <-]]. eauto.
Qed.
(** Reading a formula panics exactly if it gets stuck at a text that cannot be shortened to 50 bytes; otherwise it gives a formula or an error. *)
Theorem C48_formula_exactly : forall o single s,
  (ast_parse o single s = Panic <-> panics_on (o_unicode o) s)
  /\ (~ panics_on (o_unicode o) s -> (exists n, ast_parse o single s = Ok n) \/ (exists e, ast_parse o single s = Err e)).
Proof.
  intros o sg s. rewrite parse_panics_at, at_panics. split; [reflexivity|]. intro N. rewrite <- at_panics, <- (parse_panics_at o sg) in N.
  unfold ast_parse in *. destruct (ast_lex_total (o_unicode o) s) as [[lx E1]|[e E1]]; rewrite E1 in *.
  - clear N. set (ts := erase (lx_tokens lx)). pose proof (proj1 (parser_total o sg (parser_fuel ts)) 0 ts) as F. unfold parser_fuel in F at 1.
    specialize (F ltac:(lia)). destruct (expr_bp (parser_fuel ts) o sg 0 ts) as [[e rest]| | |]; cbn in *; try contradiction; [left|right]; eexists; reflexivity.
  - unfold unknown_error in *. destruct (_ <=? _); [right; eexists; reflexivity|]. destruct (byte_split _ _) as [[a b]|]; [right; eexists; reflexivity|]. contradiction.
Qed.
Print Assumptions C48_formula_exactly.
(** The same for a code section. *)
Theorem C48_code_section_exactly : forall o s,
  (code_section_parse o s = Panic <-> panics_on (o_unicode o) s)
  /\ (~ panics_on (o_unicode o) s -> (exists r, code_section_parse o s = Ok r) \/ (exists e, code_section_parse o s = Err e)).
Proof.
  intros o s. rewrite section_panics_at, at_panics. split; [reflexivity|]. intro N. rewrite <- at_panics, <- section_panics_at in N.
  unfold code_section_parse in *. destruct (ast_lex_total (o_unicode o) s) as [[lx E1]|[e E1]]; rewrite E1 in *.
  - clear N. destruct (parse_scope_total o (S (length (erase (lx_tokens lx)))) (erase (lx_tokens lx)) empty_scope []) as [[x ->]|[e ->]]; [lia|left|right]; eexists; reflexivity.
  - unfold unknown_error in *. destruct (_ <=? _); [right; eexists; reflexivity|]. destruct (byte_split _ _) as [[a b]|]; [right; eexists; reflexivity|]. contradiction.
Qed.
Print Assumptions C48_code_section_exactly.
(** The same for the -k arguments: the first that cannot be read decides. *)
Definition key_and_value (kv k v : str) : Prop := kv = k ++ c_eq :: v /\ ~ In c_eq k.
Lemma split_once_spec kv k v : split_once c_eq kv = Some (k, v) <-> key_and_value kv k v.
Proof.
  unfold key_and_value. revert k v. induction kv as [|x r IH]; intros k v; cbn [split_once].
  - split; [discriminate|]. intros [H _]. destruct k; discriminate H.
  - destruct (N.eqb_spec x c_eq) as [->|N].
    + split; [intro H; injection H as <- <-; auto|]. intros [H Nk]. destruct k as [|y k]; [injection H as <-; reflexivity|]. injection H as <- _. destruct Nk. left. reflexivity.
    + destruct (split_once c_eq r) as [[a b]|].
      * split; [intro H; injection H as <- <-; destruct (proj1 (IH a b) eq_refl) as [-> Na]; split; [reflexivity|]; intros [X|X]; [congruence|contradiction]|].
        intros [H Nk]. destruct k as [|y k]; [injection H as -> _; contradiction|]. injection H as <- H. assert (Q : Some (a, b) = Some (k, v)) by (apply IH; split; [exact H|intro X; apply Nk; right; exact X]). injection Q as -> ->. reflexivity.
      * split; [discriminate|]. intros [H Nk]. destruct k as [|y k]; [injection H as -> _; contradiction|]. injection H as <- H. assert (Q : None = Some (k, v)) by (apply IH; split; [exact H|intro X; apply Nk; right; exact X]). discriminate Q.
Qed.
Definition readable (o : oracle) (kv : str) : Prop := exists k v n, key_and_value kv k v /\ ast_parse o false v = Ok n.
Theorem C48_key_values_exactly : forall o kvs,
  (parse_key_values o kvs [] = Panic <->
     exists before kv after k v, kvs = before ++ kv :: after /\ Forall (readable o) before /\ key_and_value kv k v /\ panics_on (o_unicode o) v)
  /\ (parse_key_values o kvs [] <> Panic -> (exists r, parse_key_values o kvs [] = Ok r) \/ (exists e, parse_key_values o kvs [] = Err e)).
Proof.
  intros o kvs. generalize (@nil (str * node)). induction kvs as [|kv kvs IH]; intro acc; cbn [parse_key_values].
  - split; [|left; eexists; reflexivity]. split; [discriminate|]. intros [b [kv [a [k [v [H _]]]]]]. destruct b; discriminate H.
  - destruct (split_once c_eq kv) as [[k v]|] eqn:Sk.
    + apply split_once_spec in Sk. destruct (C48_formula_exactly o false v) as [X T]. destruct (ast_parse o false v) as [n|e| |] eqn:P.
      * destruct (IH (assoc_insert k n acc)) as [I1 I2]. split; [|exact I2]. rewrite I1. split.
        -- intros [b [kv1 [a [k1 [v1 [-> [F R]]]]]]]. exists (kv :: b), kv1, a, k1, v1. split; [reflexivity|]. split; [constructor; [exists k, v, n; auto|exact F]|exact R].
        -- intros [b [kv1 [a [k1 [v1 [Q [F [R Pn]]]]]]]]. destruct b as [|kv0 b]; [exfalso|].
           ++ injection Q as <- _. destruct Sk as [S1 S2], R as [R1 R2]. assert (Q2 : split_once c_eq kv = Some (k, v)) by (apply split_once_spec; split; assumption). assert (Q3 : split_once c_eq kv = Some (k1, v1)) by (apply split_once_spec; split; assumption).
              rewrite Q2 in Q3. injection Q3 as <- <-. apply X in Pn. discriminate Pn.
           ++ injection Q as <- ->. inversion F; subst. exists b, kv1, a, k1, v1. auto.
      * split; [|right; eexists; reflexivity]. split; [discriminate|]. intros [b [kv1 [a [k1 [v1 [Q [F [R Pn]]]]]]]]. exfalso. destruct b as [|kv0 b]; injection Q as <- ->.
        -- assert (Q2 : split_once c_eq kv = Some (k, v)) by (apply split_once_spec; assumption). assert (Q3 : split_once c_eq kv = Some (k1, v1)) by (apply split_once_spec; assumption). rewrite Q2 in Q3. injection Q3 as <- <-. apply X in Pn. discriminate Pn.
        -- inversion F as [|? ? [k2 [v2 [n [K2 P2]]]] ?]; subst. assert (Q2 : split_once c_eq kv = Some (k, v)) by (apply split_once_spec; assumption). assert (Q3 : split_once c_eq kv = Some (k2, v2)) by (apply split_once_spec; assumption). rewrite Q2 in Q3. injection Q3 as <- <-. congruence.
      * split; [|intros []; reflexivity]. split; [|reflexivity]. intros _. exists [], kv, kvs, k, v. split; [reflexivity|]. split; [constructor|]. split; [exact Sk|]. apply X. reflexivity.
      * exfalso. destruct T as [[n Q]|[e Q]]; try discriminate Q. intro H. apply X in H. discriminate H.
    + split; [|right; eexists; reflexivity]. split; [discriminate|]. intros [b [kv1 [a [k1 [v1 [Q [F [R Pn]]]]]]]]. exfalso. destruct b as [|kv0 b]; injection Q as <- ->.
      * apply split_once_spec in R. congruence.
      * inversion F as [|? ? [k2 [v2 [n [K2 P2]]]] ?]; subst. apply split_once_spec in K2. congruence.
Qed.
Print Assumptions C48_key_values_exactly.

(** both sides occur: a long text with accents is read, unless a character in front of it is no word *)
Example C48_exactly_nonvacuous :
  let accents := repeat 233%N 40 in
  ~ cuttable ([c_eq; c_dquote] ++ accents ++ [c_dquote]) /\ ~ panics_on (o_unicode ex_oracle) ([c_eq; c_dquote] ++ accents ++ [c_dquote])
  /\ panics_on (o_unicode ex_oracle) ([c_eq; 49%N; 64%N; 64%N; c_dquote] ++ accents ++ [c_dquote])
  /\ ~ panics_on (o_unicode ex_oracle) ([c_eq; 49%N; 64%N; c_dquote] ++ accents ++ [c_dquote]).
Proof.
  cbv zeta. split; [|split; [|split]].
  - intro C. destruct (C [c_eq; c_dquote] (233%N :: repeat 233%N 39 ++ [c_dquote]) eq_refl) as [L|[x [y [Q L]]]]; [vm_compute in L; lia|].
    destruct (C ([c_eq]) (c_dquote :: repeat 233%N 40 ++ [c_dquote]) eq_refl) as [L1|[x1 [y1 [Q1 L1]]]]; [vm_compute in L1; lia|].
    assert (B : byte_split 50 (c_dquote :: repeat 233%N 40 ++ [c_dquote]) = Some (x1, y1)) by (apply byte_split_spec; auto). vm_compute in B. discriminate B.
  - rewrite <- (proj1 (C48_formula_exactly ex_oracle false _)). vm_compute. discriminate.
  - rewrite <- (proj1 (C48_formula_exactly ex_oracle false _)). vm_compute. reflexivity.
  - rewrite <- (proj1 (C48_formula_exactly ex_oracle false _)). vm_compute. discriminate.
Qed.
