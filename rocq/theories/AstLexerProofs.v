(** * AstLexerProofs: the lexer terminates, its tokens tile the input, and what it reads. *)
From Coq Require Import ZifyBool ZifyN.
From Verif Require Import Base BaseProofs Csvp Ast AstProofs AstLexer AstParser FormulaSpec.

(** ** A position-free description of the lexer *)
Definition emit (t : token) (m : str) (ts : list tok) : list tok :=
  match t with TNewline | TComment => ts | _ => (t, trim m) :: ts end.
Inductive lexes (u : unicode) : str -> list tok -> Prop :=
| lx_end s : forallb is_ws s = true -> lexes u s []
| lx_tok s ws body t m rest ts :
    span is_blank s = (ws, body) -> first_match (matchers_ordered u) body = Some (t, m, rest) ->
    lexes u rest ts -> lexes u s (emit t m ts).

Lemma span_spec f s : forall a b, span f s = (a, b) ->
  s = a ++ b /\ forallb f a = true /\ (match b with [] => True | c :: _ => f c = false end).
Proof.
  induction s as [|c s IH]; simpl; intros a b H.
  - inversion H; subst. repeat split.
  - destruct (f c) eqn:E.
    + destruct (span f s) as [a' b'] eqn:E2. inversion H; subst.
      destruct (IH a' b eq_refl) as [-> [H1 H2]]. simpl. rewrite E. auto.
    + inversion H; subst. simpl. auto.
Qed.

Lemma span_app f a b : forallb f a = true -> (match b with [] => True | c :: _ => f c = false end) ->
  span f (a ++ b) = (a, b).
Proof.
  induction a as [|c a IH]; simpl; intros H1 H2.
  - destruct b as [|c b]; [reflexivity|]. simpl. rewrite H2. reflexivity.
  - apply andb_prop in H1 as [Hc H1]. rewrite Hc, IH by assumption. reflexivity.
Qed.

Lemma strip_prefix_spec p : forall s r, strip_prefix p s = Some r -> s = p ++ r.
Proof.
  induction p as [|x p IH]; simpl; intros s r H; [inversion H; reflexivity|].
  destruct s as [|y s]; [discriminate|]. destruct (N.eqb_spec x y); [|discriminate].
  subst. f_equal. auto.
Qed.

Lemma strip_prefix_app p r : strip_prefix p (p ++ r) = Some r.
Proof. induction p; simpl; [reflexivity|]. rewrite N.eqb_refl. assumption. Qed.

(** ** Every matcher takes a non-empty prefix *)
Definition good (m : matcher) : Prop := forall s a r, m s = Some (a, r) -> s = a ++ r /\ a <> [].

Lemma good_lit p : p <> [] -> good (m_lit p).
Proof.
  intros Hp s a r H. unfold m_lit in H. destruct (strip_prefix p s) eqn:E; [|discriminate].
  inversion H; subst. apply strip_prefix_spec in E. auto.
Qed.
Lemma good_alt ps : Forall (fun p => p <> []) ps -> good (m_alt ps).
Proof.
  induction 1 as [|p ps Hp H IH]; intros s a r E; simpl in E; [discriminate|].
  destruct (m_lit p s) as [[a' r']|] eqn:E1.
  - inversion E; subst. eapply good_lit; eauto.
  - apply IH. exact E.
Qed.
Lemma good_plus f : good (m_plus f).
Proof.
  intros s a r H. unfold m_plus in H. destruct (span f s) as [x y] eqn:E.
  apply span_spec in E as [-> _]. destruct x; [discriminate|]. inversion H; subst. split; [reflexivity|discriminate].
Qed.
Lemma good_comment : good m_comment.
Proof.
  intros s a r H. unfold m_comment in H. destruct s as [|c s]; [discriminate|].
  destruct (c =? c_hash)%N; [|discriminate]. destruct (span _ s) as [x y] eqn:E.
  apply span_spec in E as [-> _]. inversion H; subst. split; [reflexivity|discriminate].
Qed.
Lemma dq_loop_spec : forall s acc last a r,
  (forall a r, last = Some (a, r) -> rev acc ++ s = a ++ r /\ a <> []) ->
  m_dq_loop s acc last = Some (a, r) -> rev acc ++ s = a ++ r /\ a <> [].
Proof.
  fix IH 1. intros s acc last a r Hl H. destruct s as [|c s]; simpl in H.
  - apply Hl. exact H.
  - assert (Hc : forall s' x, Some (rev (c :: acc), s') = Some x :> option (str * str) -> s = s' ->
        rev acc ++ c :: s = fst x ++ snd x /\ fst x <> []).
    { intros s' x Hx ->. inversion Hx; subst. simpl. rewrite <- app_assoc. split; [reflexivity|].
      destruct (rev acc); discriminate. }
    destruct (c =? c_dquote)%N.
    + destruct s as [|c' s'].
      * apply (Hc [] (a, r)); auto.
      * destruct (c' =? c_dquote)%N.
        -- assert (G : rev (c' :: c :: acc) ++ s' = a ++ r /\ a <> []).
           { eapply IH; [|exact H]. intros a0 r0 E. 
             destruct (Hc (c' :: s') (a0, r0)) as [G1 G2]; auto. simpl in G1, G2. split; [|exact G2].
             rewrite <- G1. simpl. rewrite <- !app_assoc. reflexivity. }
           destruct G as [G1 G2]. split; [|exact G2]. rewrite <- G1. simpl. rewrite <- !app_assoc. reflexivity.
        -- apply (Hc (c' :: s') (a, r)); auto.
    + assert (G : rev (c :: acc) ++ s = a ++ r /\ a <> []).
      { eapply IH; [|exact H]. intros a0 r0 E. destruct (Hl _ _ E) as [G1 G2]. split; [|exact G2].
        rewrite <- G1. simpl. rewrite <- app_assoc. reflexivity. }
      destruct G as [G1 G2]. split; [|exact G2]. rewrite <- G1. simpl. rewrite <- app_assoc. reflexivity.
Qed.
Lemma good_dq : good m_dq.
Proof.
  intros s a r H. unfold m_dq in H. destruct s as [|c s]; [discriminate|].
  destruct (c =? c_dquote)%N; [|discriminate].
  apply dq_loop_spec in H; [exact H|]. discriminate.
Qed.
Lemma good_fn : good m_fn.
Proof.
  intros s a r H. unfold m_fn in H. destruct (strip_prefix (lit "fn") s) as [x|] eqn:E; [|discriminate].
  apply strip_prefix_spec in E. destruct (span is_ws x) as [y z] eqn:E2.
  apply span_spec in E2 as [-> _]. destruct y; [discriminate|]. inversion H; subst.
  split; [|discriminate]. reflexivity.
Qed.
Lemma good_float u : good (m_float u).
Proof.
  intros s a r H. unfold m_float in H. destruct (span (is_digit u) s) as [x y] eqn:E.
  apply span_spec in E as [-> _]. destruct x; [discriminate|]. destruct y as [|d y]; [discriminate|].
  destruct (d =? c_dot)%N; [|discriminate]. destruct (span (is_digit u) y) as [v w] eqn:E2.
  apply span_spec in E2 as [-> _]. inversion H; subst. split; [|discriminate].
  simpl; rewrite <- app_assoc; reflexivity.
Qed.
Lemma good_reference u : good (m_reference u).
Proof.
  intros s a r H. unfold m_reference in H. destruct (span (ref_char u) s) as [x y] eqn:E.
  apply span_spec in E as [-> _]. destruct x; [discriminate|]. destruct y as [|d y].
  - inversion H; subst. split; [reflexivity|discriminate].
  - destruct (d =? c_dot)%N; inversion H; subst; split; try discriminate; try reflexivity.
    simpl; rewrite <- app_assoc; reflexivity.
Qed.

Lemma matchers_good u : Forall (fun tm => good (snd tm)) (matchers_ordered u).
Proof.
  unfold matchers_ordered. repeat apply Forall_cons; try apply Forall_nil; simpl;
    try (apply good_lit; discriminate).
  - apply good_comment.
  - apply good_dq.
  - apply good_fn.
  - apply good_alt. unfold operators. repeat apply Forall_cons; try apply Forall_nil; discriminate.
  - apply good_float.
  - apply good_plus.
  - apply good_reference.
Qed.

Lemma first_match_In ms s t a r : first_match ms s = Some (t, a, r) ->
  exists m, In (t, m) ms /\ m s = Some (a, r).
Proof.
  induction ms as [|[t' m'] ms IH]; simpl; [discriminate|].
  destruct (m' s) as [[a' r']|] eqn:E; intro H.
  - inversion H; subst. exists m'. auto.
  - destruct (IH H) as [m [Hm1 Hm2]]. exists m. auto.
Qed.

Lemma first_match_split u s t a r : first_match (matchers_ordered u) s = Some (t, a, r) ->
  s = a ++ r /\ a <> [].
Proof.
  intro H. apply first_match_In in H as [m [Hin Hm]].
  pose proof (matchers_good u) as G. rewrite Forall_forall in G. exact (G _ Hin _ _ _ Hm).
Qed.

(** ** White space *)
Lemma lit_ne p x c s : strip_prefix (x :: p) (c :: s) = None <-> (x <> c \/ strip_prefix p s = None).
Proof. simpl. destruct (N.eqb_spec x c); split; intro H; auto; try (destruct H; congruence). Qed.

Lemma m_lit_ne p x c s : x <> c -> m_lit (x :: p) (c :: s) = None.
Proof. intro H. unfold m_lit. rewrite (proj2 (lit_ne p x c s)); auto. Qed.

Lemma is_ws_not_ref u c : is_ws c = true -> ref_char u c = false.
Proof.
  intro H. unfold ref_char, is_word. destruct (is_ascii c) eqn:Ea.
  - unfold is_ascii in Ea. apply N.ltb_lt in Ea.
    unfold is_ws in H. unfold is_ascii_word, is_ascii_alnum, is_ascii_alpha, is_ascii_upper, is_ascii_lower, is_ascii_digit, c_dollar, c_excl, c_colon.
    lia.
  - rewrite H. simpl. unfold is_ascii in Ea. apply N.ltb_ge in Ea. unfold c_dollar, c_excl, c_colon. lia.
Qed.
Lemma is_ws_not_digit u c : is_ws c = true -> is_digit u c = false.
Proof.
  intro H. unfold is_digit. destruct (is_ascii c) eqn:Ea.
  - unfold is_ws in H. unfold is_ascii_digit. lia.
  - rewrite H. reflexivity.
Qed.

(** A white-space character other than newline starts no token. *)
Lemma first_match_ws u c s : is_ws c = true -> c <> c_nl ->
  first_match (matchers_ordered u) (c :: s) = None.
Proof.
  intros H Hn.
  assert (Hne : forall x : N, is_ws x = false -> x <> c) by (intros x Hx ->; congruence).
  unfold matchers_ordered. simpl first_match.
  unfold m_newline. rewrite m_lit_ne by congruence.
  unfold m_comment, m_dq, m_fn.
  assert (E1 : (c =? c_hash)%N = false) by (apply N.eqb_neq; intro X; subst; discriminate).
  assert (E2 : (c =? c_dquote)%N = false) by (apply N.eqb_neq; intro X; subst; discriminate).
  rewrite E1, E2.
  assert (E3 : strip_prefix (lit "fn") (c :: s) = None).
  { simpl lit. apply lit_ne. left. apply Hne. reflexivity. }
  rewrite E3.
  unfold m_operator, operators, m_alt. simpl lit.
  repeat (rewrite m_lit_ne by (apply Hne; reflexivity)).
  unfold m_float, m_integer, m_plus, m_reference. simpl span.
  rewrite (is_ws_not_digit u c H), (is_ws_not_ref u c H). reflexivity.
Qed.
Lemma first_match_nl u s : first_match (matchers_ordered u) (c_nl :: s) = Some (TNewline, [c_nl], s).
Proof. reflexivity. Qed.

Lemma is_blank_ws c : is_blank c = true -> is_ws c = true.
Proof. unfold is_blank. destruct (is_ws c); auto. Qed.
Lemma forallb_blank_ws s : forallb is_blank s = true -> forallb is_ws s = true.
Proof.
  induction s as [|c s IH]; simpl; intro H; auto. apply andb_prop in H as [H1 H2].
  rewrite (is_blank_ws c H1), IH by exact H2. reflexivity.
Qed.

Lemma blank_match u s ws body t m rest : forallb is_ws s = true -> span is_blank s = (ws, body) ->
  first_match (matchers_ordered u) body = Some (t, m, rest) ->
  t = TNewline /\ forallb is_ws rest = true.
Proof.
  intros Hs Hsp Hm. apply span_spec in Hsp as [-> [_ Hb]].
  rewrite forallb_app in Hs. apply andb_prop in Hs as [_ Hs].
  destruct body as [|c body]; [discriminate|]. simpl in Hs. apply andb_prop in Hs as [Hc Hs].
  destruct (N.eq_dec c c_nl) as [->|Hn].
  - rewrite first_match_nl in Hm. inversion Hm; subst. auto.
  - rewrite first_match_ws in Hm by assumption. discriminate.
Qed.

Lemma lexes_blank u s ts : lexes u s ts -> forallb is_ws s = true -> ts = [].
Proof.
  induction 1 as [s H|s ws body t m rest ts Hsp Hm Hl IH]; intro Hs; [reflexivity|].
  destruct (blank_match u s ws body t m rest Hs Hsp Hm) as [-> Hr]. simpl. auto.
Qed.

(** ** The lexer computes [lexes] *)
Lemma erase_app a b : erase (a ++ b) = erase a ++ erase b.
Proof. apply map_app. Qed.
Lemma trim_app_ws ws m : forallb is_ws ws = true -> trim (ws ++ m) = trim m.
Proof. intro H. unfold trim. rewrite trim_start_app_ws by exact H. reflexivity. Qed.

Lemma lex_complete u s ts : lexes u s ts -> forall fuel off ln acc, length s < fuel ->
  exists lx, lex_loop fuel u s off ln acc = Ok lx /\ erase (lx_tokens lx) = erase (rev acc) ++ ts.
Proof.
  induction 1 as [s H|s ws body t m rest ts Hsp Hm Hl IH]; intros fuel off ln acc Hf;
    (destruct fuel as [|fuel]; [lia|]); cbn [lex_loop].
  - destruct (span is_blank s) as [ws body] eqn:Hsp.
    destruct (first_match (matchers_ordered u) body) as [[[t m] rest]|] eqn:Hm.
    + destruct (blank_match u s ws body t m rest H Hsp Hm) as [-> Hr]. rewrite Hr.
      eexists. split; [reflexivity|]. simpl. rewrite app_nil_r. reflexivity.
    + rewrite H. eexists. split; [reflexivity|]. simpl. rewrite app_nil_r. reflexivity.
  - rewrite Hsp, Hm.
    destruct (span_spec _ _ _ _ Hsp) as [Es [Hws _]]. apply forallb_blank_ws in Hws.
    destruct (first_match_split _ _ _ _ _ Hm) as [Eb Hne].
    assert (Hlen : length rest < fuel).
    { subst s body. rewrite !app_length in Hf. destruct m; [congruence|]. simpl in Hf. lia. }
    set (pr := match t with TNewline => _ | TComment => _ | _ => _ end).
    assert (Hpr : erase (rev (fst (fst pr))) ++ ts = erase (rev acc) ++ emit t m ts).
    { unfold pr. destruct t; simpl; try reflexivity;
        rewrite erase_app; simpl; rewrite <- app_assoc; simpl; rewrite trim_app_ws by exact Hws; reflexivity. }
    destruct pr as [[acc' off'] ln']. simpl in Hpr.
    destruct (forallb is_ws rest) eqn:Hr.
    + rewrite (lexes_blank u rest ts Hl Hr) in Hpr. rewrite app_nil_r in Hpr.
      eexists. split; [reflexivity|]. simpl. rewrite (lexes_blank u rest ts Hl Hr). exact Hpr.
    + destruct (IH fuel off' ln' acc' Hlen) as [lx [E1 E2]]. exists lx. split; [exact E1|].
      rewrite E2. exact Hpr.
Qed.

Lemma lex_sound u : forall fuel s off ln acc lx, lex_loop fuel u s off ln acc = Ok lx ->
  exists ts, lexes u s ts /\ erase (lx_tokens lx) = erase (rev acc) ++ ts.
Proof.
  induction fuel as [|fuel IH]; intros s off ln acc lx H; [discriminate|]. cbn [lex_loop] in H.
  destruct (span is_blank s) as [ws body] eqn:Hsp.
  destruct (span_spec _ _ _ _ Hsp) as [Es [Hws _]]. apply forallb_blank_ws in Hws.
  destruct (first_match (matchers_ordered u) body) as [[[t m] rest]|] eqn:Hm.
  - set (pr := match t with TNewline => _ | TComment => _ | _ => _ end) in H.
    assert (Hpr : forall ts, erase (rev (fst (fst pr))) ++ ts = erase (rev acc) ++ emit t m ts).
    { intro ts. unfold pr. destruct t; simpl; try reflexivity;
        rewrite erase_app; simpl; rewrite <- app_assoc; simpl; rewrite trim_app_ws by exact Hws; reflexivity. }
    destruct pr as [[acc' off'] ln']. simpl in Hpr.
    destruct (forallb is_ws rest) eqn:Hr.
    + inversion H; subst. exists (emit t m []). split.
      * eapply lx_tok; eauto. apply lx_end. exact Hr.
      * simpl. rewrite <- Hpr, app_nil_r. reflexivity.
    + apply IH in H as [ts [Hl E]]. exists (emit t m ts). split; [eapply lx_tok; eauto|].
      rewrite E. apply Hpr.
  - destruct (forallb is_ws s) eqn:Hs; [|discriminate]. inversion H; subst.
    exists []. split; [apply lx_end; exact Hs|]. simpl. rewrite app_nil_r. reflexivity.
Qed.

Lemma lex_total u : forall fuel s off ln acc, length s < fuel ->
  (exists lx, lex_loop fuel u s off ln acc = Ok lx) \/ (exists e, lex_loop fuel u s off ln acc = Err e).
Proof.
  induction fuel as [|fuel IH]; intros s off ln acc H; [lia|]. cbn [lex_loop].
  destruct (span is_blank s) as [ws body] eqn:Hsp.
  destruct (span_spec _ _ _ _ Hsp) as [Es _].
  destruct (first_match (matchers_ordered u) body) as [[[t m] rest]|] eqn:Hm.
  - destruct (match t with TNewline => _ | TComment => _ | _ => _ end) as [[acc' off'] ln'].
    destruct (forallb is_ws rest); [left; eexists; reflexivity|]. apply IH.
    destruct (first_match_split _ _ _ _ _ Hm) as [Eb Hne].
    subst s body. rewrite !app_length in H. destruct m; [congruence|]. simpl in H. lia.
  - destruct (forallb is_ws s); [left|right]; eexists; reflexivity.
Qed.

(** the text the lexer works on: one leading '=' is dropped *)
Definition formula_text (s : str) : str := match strip_prefix [c_eq] s with Some r => r | None => s end.

Lemma ast_lex_complete u s ts : lexes u (formula_text s) ts ->
  exists lx, ast_lex u s = Ok lx /\ erase (lx_tokens lx) = ts.
Proof.
  unfold formula_text, ast_lex. intro H.
  destruct (strip_prefix [c_eq] s) as [r|];
    (eapply lex_complete in H; [destruct H as [lx [E1 E2]]; exists lx; split; [exact E1|exact E2]|lia]).
Qed.
Lemma ast_lex_sound u s lx : ast_lex u s = Ok lx -> lexes u (formula_text s) (erase (lx_tokens lx)).
Proof.
  unfold formula_text, ast_lex. intro H.
  destruct (strip_prefix [c_eq] s) as [r|]; apply lex_sound in H as [ts [H1 H2]]; simpl in H2; rewrite H2; exact H1.
Qed.
Lemma ast_lex_total u s : (exists lx, ast_lex u s = Ok lx) \/ (exists e, ast_lex u s = Err e).
Proof. unfold ast_lex. destruct (strip_prefix [c_eq] s); apply lex_total; lia. Qed.

(** ** What an unknown token reports: the rest of the input *)
Lemma lex_unknown u : forall fuel s off ln acc e, lex_loop fuel u s off ln acc = Err e ->
  exists a, s = a ++ ut_input e.
Proof.
  induction fuel as [|fuel IH]; intros s off ln acc e H; [discriminate|]. cbn [lex_loop] in H.
  destruct (span is_blank s) as [ws body] eqn:Hsp.
  destruct (span_spec _ _ _ _ Hsp) as [Es _].
  destruct (first_match (matchers_ordered u) body) as [[[t m] rest]|] eqn:Hm.
  - destruct (match t with TNewline => _ | TComment => _ | _ => _ end) as [[acc' off'] ln'].
    destruct (forallb is_ws rest); [discriminate|]. apply IH in H as [a Ea].
    destruct (first_match_split _ _ _ _ _ Hm) as [Eb _].
    exists (ws ++ m ++ a). subst s body. rewrite Ea, <- !app_assoc. reflexivity.
  - destruct (forallb is_ws s); [discriminate|]. inversion H. exists []. reflexivity.
Qed.
Lemma ast_lex_unknown u s e : ast_lex u s = Err e -> exists a, s = a ++ ut_input e.
Proof.
  unfold ast_lex. destruct (strip_prefix [c_eq] s) as [r|] eqn:E; intro H; apply lex_unknown in H as [a Ea].
  - apply strip_prefix_spec in E. exists (c_eq :: a). rewrite E, Ea. reflexivity.
  - exists a. assumption.
Qed.
