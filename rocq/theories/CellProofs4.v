(** * CellProofs4: lists of values, validations and options. *)
From Verif Require Import Base BaseProofs Csvp Ast AstLexer AstParser AstLexerProofs Options CellLexer CellParser CellSpec CellProofs CellProofs2 CellProofs3.
From Coq Require Import ZifyBool ZifyN.

Lemma in_line_spaces w : in_line w -> spaces w.
Proof. apply forallb_blank_ws. Qed.
Lemma in_line_app a b : in_line (a ++ b) <-> in_line a /\ in_line b.
Proof. unfold in_line. rewrite forallb_app, andb_true_iff. reflexivity. Qed.

(** ** One item *)
Lemma m_date_head u s a r : ascii s -> m_date u s = Some (a, r) ->
  exists y p q, span is_ascii_digit s = (y, p :: q) /\ y <> [] /\ (p = c_minus \/ p = c_slash).
Proof.
  intros Ha H. apply m_date_ok in H as [-> [x [y [z H]]]]; [|exact Ha].
  destruct H as [[-> [[L F] _]]|[-> [[L F] _]]]; rewrite <- !app_assoc; cbn [app];
    (rewrite span_app; [|exact F|reflexivity]); do 3 eexists; (split; [reflexivity|]);
    (split; [destruct x; [cbn in L; lia|discriminate]|auto]).
Qed.
Lemma m_date_none_head u c s : ascii (c :: s) -> is_ascii_digit c = false -> m_date u (c :: s) = None.
Proof.
  intros Ha Hc. destruct (m_date u (c :: s)) as [[a r]|] eqn:E; [|reflexivity].
  apply m_date_head in E as [y [p [q [E [Hy _]]]]]; [|exact Ha]. cbn [span] in E. rewrite Hc in E. inversion E. congruence.
Qed.
Lemma m_number_none_head u c s : ascii (c :: s) -> is_ascii_digit c = false -> c <> c_minus -> m_number u (c :: s) = None.
Proof.
  intros Ha Hc Hm. unfold m_number. destruct (N.eqb_spec c c_minus) as [?|_]; [congruence|].
  rewrite span_digit_ascii by exact Ha. cbn [span]. rewrite Hc. reflexivity.
Qed.
Lemma m_number_some_head u c s : ascii (c :: s) -> is_ascii_digit c = true -> m_number u (c :: s) <> None.
Proof.
  intros Ha Hc. unfold m_number. assert (Hm : (c =? c_minus)%N = false) by (unfold is_ascii_digit, c_minus in *; lia).
  rewrite Hm, span_digit_ascii by exact Ha. cbn [span]. rewrite Hc. destruct (span is_ascii_digit s) as [a r].
  destruct (m_seq (m_lit [c_dot]) (m_plus (is_digit u)) r) as [[b r2]|]; discriminate.
Qed.
Lemma int_no_dot t : int_shape t -> existsb (fun c => (c =? c_dot)%N) t = false.
Proof.
  assert (K : forall s, forallb is_ascii_digit s = true -> existsb (fun c => (c =? c_dot)%N) s = false).
  { intros s Hs. destruct (existsb (fun c => (c =? c_dot)%N) s) eqn:E; [|reflexivity]. apply existsb_exists in E as [x [Hx Ex]].
    rewrite forallb_forall in Hs. specialize (Hs x Hx). unfold is_ascii_digit, c_dot in *. lia. }
  intros [H|[a [-> H]]]; apply all_digits_inv in H as [_ H]; cbn; apply K; exact H.
Qed.
Lemma float_dot t : float_shape t -> existsb (fun c => (c =? c_dot)%N) t = true.
Proof. intros [a [b [-> _]]]. rewrite !existsb_app. cbn. rewrite orb_true_r. reflexivity. Qed.

Lemma maybe_quoted_ok f l : wf f l ->
  match maybe_take_single_quoted_string f l with
  | Ok (Some (t, l')) => wf f l' /\ tok_at f t /\ ct_kind t = KString
      /\ exists w q, in_line w /\ cl_input l = w ++ q ++ cl_input l' /\ quoted_text q (ct_text t)
  | Ok None => True
  | Err _ | Panic | NoFuel => False
  end.
Proof.
  intro H. unfold maybe_take_single_quoted_string. destruct (span is_blank (cl_input l)) as [ws body] eqn:Sp.
  apply span_spec in Sp as [E [Fw _]]. destruct (has_quoted body) eqn:Q; [|exact I].
  pose proof (take_single_quoted_ok f l H) as T. destruct (take_single_quoted_string f l) as [[t l']| | |]; auto.
  destruct T as [W [Ht [Hk [w [q [Hw [E2 Hq]]]]]]]. split; [exact W|]. split; [exact Ht|]. split; [exact Hk|].
  assert (Ew : w = ws).
  { destruct body as [|c b]; [discriminate Q|]. cbn [has_quoted] in Q. apply andb_true_iff in Q as [Qc _]. apply N.eqb_eq in Qc. subst c.
    pose proof Hq as [b' [Eq _]]. rewrite E in E2. rewrite Eq in E2.
    assert (S1 : span is_ws (ws ++ c_squote :: b) = (ws, c_squote :: b)) by (apply span_app; [apply forallb_blank_ws; exact Fw|reflexivity]).
    assert (S2 : span is_ws (w ++ ([c_squote] ++ b' ++ [c_squote]) ++ cl_input l') = (w, ([c_squote] ++ b' ++ [c_squote]) ++ cl_input l')) by (apply span_app; [exact Hw|reflexivity]).
    rewrite E2, S2 in S1. inversion S1. reflexivity. }
  exists w, q. split; [rewrite Ew; exact Fw|]. split; assumption.
Qed.

Lemma in_list_token_ok co f l : wf f l ->
  match in_list_token co f l with
  | Ok (Some (t, l')) => wf f l' /\ length (cl_input l') < length (cl_input l) /\
      match ast_of_ctoken co f t with
      | Ok n => exists w x, in_line w /\ cl_input l = w ++ x ++ cl_input l' /\ item_text co x n
      | Err _ => True | Panic | NoFuel => False
      end
  | Ok None => True
  | Err _ | Panic | NoFuel => False
  end.
Proof.
  intro H. unfold in_list_token.
  pose proof (maybe_take_regex_ok f l KDate (m_date (co_unicode co)) date_shape H (m_date_ok _) (fun a Ha => proj1 (date_no_ws a Ha))) as M.
  destruct (maybe_take_regex l KDate (m_date (co_unicode co))) as [[[t l']|]| | |]; try contradiction; cbn [bind].
  { destruct M as [W [Ht [Hk [Hs [w [Hw E]]]]]]. split; [exact W|]. destruct (date_no_ws _ Hs) as [_ [Hn _]].
    split; [rewrite E, !app_length; destruct (ct_text t); [congruence|cbn; lia]|].
    unfold ast_of_ctoken. rewrite Hk. unfold into_date. pose proof (or_error_spec f t MDate (date_canon co (ct_text t)) Ht) as O.
    destruct (or_error f t MDate (date_canon co (ct_text t))) as [d| | |]; cbn [bind]; auto.
    exists w, (ct_text t). split; [exact Hw|]. split; [exact E|]. apply it_date. split; assumption. }
  clear M.
  pose proof (maybe_take_regex_ok f l KNumber (m_number (co_unicode co)) (fun a => int_shape a \/ float_shape a) H (m_number_ok _)) as M.
  assert (NW : forall a, int_shape a \/ float_shape a -> no_ws a).
  { intros a [Hi|Hf]; [apply int_no_ws in Hi|apply float_no_ws in Hf]; tauto. }
  specialize (M NW).
  destruct (maybe_take_regex l KNumber (m_number (co_unicode co))) as [[[t l']|]| | |]; try contradiction; cbn [bind].
  { destruct M as [W [Ht [Hk [Hs [w [Hw E]]]]]]. split; [exact W|].
    split. { assert (Hn : ct_text t <> []) by (destruct Hs as [Hi|Hf]; [apply int_no_ws in Hi|apply float_no_ws in Hf]; tauto).
             rewrite E, !app_length; destruct (ct_text t); [congruence|cbn; lia]. }
    unfold ast_of_ctoken. rewrite Hk. destruct Hs as [Hs|Hs].
    - rewrite (int_no_dot _ Hs). unfold into_number. pose proof (or_error_spec f t MInteger (parse_signed (ct_text t)) Ht) as O.
      destruct (or_error f t MInteger (parse_signed (ct_text t))) as [z| | |]; cbn [bind]; auto.
      exists w, (ct_text t). split; [exact Hw|]. split; [exact E|]. apply it_int. apply parse_signed_spec. exact O.
    - rewrite (float_dot _ Hs). pose proof (or_error_spec f t MFloat (f64_canon (co_oracle co) (ct_text t)) Ht) as O.
      destruct (or_error f t MFloat (f64_canon (co_oracle co) (ct_text t))) as [z| | |]; cbn [bind]; auto.
      exists w, (ct_text t). split; [exact Hw|]. split; [exact E|]. destruct Hs as [a [b [Et [Ha Hb]]]].
      eapply it_float; eauto. }
  rename M into Nnum.
  pose proof (maybe_quoted_ok f l H) as M.
  destruct (maybe_take_single_quoted_string f l) as [[[t l']|]| | |]; try contradiction; cbn [bind].
  { destruct M as [W [Ht [Hk [w [q [Hw [E Hq]]]]]]]. split; [exact W|]. pose proof Hq as [b [Eq _]].
    split; [rewrite E, Eq, !app_length; cbn; lia|]. unfold ast_of_ctoken. rewrite Hk.
    destruct (text_unquote (ct_text t)) as [e|v] eqn:U; [destruct (Ht node MText) as [e' ->]; exact I|].
    exists w, q. split; [exact Hw|]. split; [exact E|]. eapply it_quoted; eauto. }
  clear M.
  pose proof (maybe_take_regex_ok f l KIdentifier (m_identifier (co_unicode co)) word H (m_identifier_ok _) (fun a Ha => word_no_ws a (proj2 Ha))) as M.
  destruct (maybe_take_regex l KIdentifier (m_identifier (co_unicode co))) as [[[t l']|]| | |]; try contradiction; auto.
  destruct M as [W [Ht [Hk [Hs [w [Hw E]]]]]]. split; [exact W|]. pose proof Hs as [Hn Hf].
  split; [rewrite E, !app_length; destruct (ct_text t); [congruence|cbn; lia]|].
  unfold ast_of_ctoken. rewrite Hk. exists w, (ct_text t). split; [exact Hw|]. split; [exact E|].
  assert (Sp : snd (span is_blank (cl_input l)) = ct_text t ++ cl_input l').
  { rewrite E. rewrite span_app; [reflexivity|exact Hw|]. destruct (ct_text t) as [|c x]; [congruence|]. cbn in Hf.
    apply andb_true_iff in Hf as [Hc _]. cbn. unfold is_blank. rewrite (word_char_not_ws c Hc). reflexivity. }
  rewrite Sp in Nnum. destruct (wf_ascii_app f l w _ H E) as [_ A].
  destruct (ct_text t) as [|c x]; [congruence|]. apply it_word; [|exact Hs].
  destruct (is_ascii_digit c) eqn:D; [|reflexivity]. destruct (m_number_some_head _ _ _ A D Nnum).
Qed.

Definition item_stop (r : str) : Prop := match r with c :: _ => is_ws c = true \/ c = c_rparen | [] => True end.
Lemma item_stop_facts r : item_stop r -> not_digit_head r /\ not_word_head r /\ stops_number r
  /\ match r with c :: _ => c <> c_minus /\ c <> c_slash | [] => True end.
Proof.
  destruct r as [|c r]; [cbn; auto|]. cbn [item_stop not_digit_head not_word_head stops_number].
  unfold word_char, is_ascii_alnum, is_ascii_alpha, is_ascii_upper, is_ascii_lower, is_ascii_digit, is_ws, c_rparen, c_dot, c_minus, c_slash, c_underscore. lia.
Qed.
Lemma int_date_none u t r : int_shape t -> ascii (t ++ r) -> item_stop r -> m_date u (t ++ r) = None.
Proof.
  intros Hi Ha Hr. destruct (item_stop_facts r Hr) as [D [_ [_ S]]].
  destruct Hi as [Hi|[a [-> Hi]]]; [|apply m_date_none_head; [exact Ha|reflexivity]].
  destruct (m_date u (t ++ r)) as [[a b]|] eqn:E; [|reflexivity]. apply m_date_head in E as [y [p [q [E [_ Hp]]]]]; [|exact Ha].
  apply all_digits_inv in Hi as [_ Hi]. rewrite span_app in E; [|exact Hi|destruct r; [exact I|exact D]].
  inversion E; subst. destruct S. destruct Hp; congruence.
Qed.
Lemma float_date_none u t r : float_shape t -> ascii (t ++ r) -> m_date u (t ++ r) = None.
Proof.
  intros [i [b [-> [Hi Hb]]]] Ha.
  destruct Hi as [Hi|[a [-> Hi]]]; [|apply m_date_none_head; [exact Ha|reflexivity]].
  destruct (m_date u ((i ++ [c_dot] ++ b) ++ r)) as [[x z]|] eqn:E; [|reflexivity].
  apply m_date_head in E as [y [p [q [E [_ Hp]]]]]; [|exact Ha].
  apply all_digits_inv in Hi as [_ Hi]. rewrite <- !app_assoc in E. cbn [app] in E. rewrite span_app in E; [|exact Hi|reflexivity].
  inversion E; subst. destruct Hp; discriminate.
Qed.
Lemma quoted_has q s r : quoted_text q s -> has_quoted (q ++ r) = true.
Proof.
  intros [b [-> _]]. rewrite <- !app_assoc. cbn [app has_quoted]. change (c_squote =? c_squote)%N with true. cbn [andb].
  rewrite existsb_app. cbn. rewrite orb_true_r. reflexivity.
Qed.
Lemma item_head co x n : item_text co x n -> exists c x', x = c :: x' /\ is_ws c = false /\ c <> c_rparen.
Proof.
  assert (K : forall s, s <> [] -> no_ws s -> (forall c x', s = c :: x' -> c <> c_rparen) ->
     exists c x', s = c :: x' /\ is_ws c = false /\ c <> c_rparen).
  { intros [|c s] Hn Hw Hp; [congruence|]. exists c, s. split; [reflexivity|]. cbn in Hw. apply andb_true_iff in Hw as [Hw _].
    apply negb_true_iff in Hw. split; [exact Hw|]. eapply Hp; reflexivity. }
  assert (DG : forall c, is_ascii_digit c = true -> c <> c_rparen) by (intros c; unfold is_ascii_digit, c_rparen; lia).
  assert (IS : forall s, int_shape s -> exists c x', s = c :: x' /\ is_ws c = false /\ c <> c_rparen).
  { intros s Hs. pose proof (int_no_ws s Hs) as [Hw Hn]. apply K; auto. intros c x' ->.
    destruct Hs as [Hs|[a [Es Hs]]].
    - cbn in Hs. apply andb_true_iff in Hs as [Hs _]. auto.
    - inversion Es. discriminate. }
  intros [t d [Hs _]|t z Hz|t v a b -> Ha _ _|t s v [b [-> _]] _|c t Hc [Hn Hf]].
  - destruct (date_no_ws t Hs) as [Hw [Hn [c [x' [Et Hd]]]]]. apply K; auto. intros c' x'' ->. inversion Et; subst. auto.
  - apply IS. destruct Hz as [[D _]|[r [-> [D _]]]]; [left; exact D|right; eauto].
  - destruct (IS a Ha) as [c [x' [-> [H1 H2]]]]. cbn. eauto.
  - exists c_squote. cbn. eexists. split; [reflexivity|]. split; [reflexivity|discriminate].
  - exists c, t. split; [reflexivity|]. cbn in Hf. apply andb_true_iff in Hf as [Hf _]. split; [apply word_char_not_ws; exact Hf|].
    intros ->. discriminate Hf.
Qed.

Lemma in_list_token_done co f l w x n r : wf f l -> cl_input l = w ++ x ++ r -> in_line w -> item_text co x n -> item_stop r ->
  exists t l', in_list_token co f l = Ok (Some (t, l')) /\ cl_input l' = r /\ wf f l' /\ ast_of_ctoken co f t = Ok n.
Proof.
  intros H E Hw Hx Hr. destruct (wf_ascii_app f l w _ H E) as [_ A]. destruct (item_stop_facts r Hr) as [D1 [D2 [D3 D4]]].
  assert (BL : match x ++ r with c :: _ => is_blank c = false | [] => True end).
  { destruct (item_head co x n Hx) as [c [x' [-> [Hc _]]]]. cbn. unfold is_blank. rewrite Hc. reflexivity. }
  assert (A2 : ascii r) by (apply ascii_app in A; tauto).
  unfold in_list_token. destruct Hx as [t d [Hs Hd]|t z Hz|t v a b Et Ha Hb Hv|t s v Hq Hv|c t Hc Hf].
  - destruct (date_no_ws t Hs) as [Nw [Ne _]].
    destruct (maybe_take_regex_done f l KDate (m_date (co_unicode co)) w t r H E Hw Nw Ne (m_date_done _ t r Hs A D1))
      as [tk [l' [X1 [X2 [X3 [X4 [X5 X6]]]]]]].
    rewrite X1. cbn [bind]. exists tk, l'. split; [reflexivity|]. split; [exact X2|]. split; [exact X3|].
    unfold ast_of_ctoken. rewrite X5. unfold into_date. rewrite X4, Hd. reflexivity.
  - assert (Hi : int_shape t) by (destruct Hz as [[D _]|[q [-> [D _]]]]; [left; exact D|right; eauto]).
    destruct (int_no_ws t Hi) as [Nw Ne].
    rewrite (maybe_take_regex_none l KDate _ w (t ++ r) E Hw BL (int_date_none _ t r Hi A Hr)). cbn [bind].
    destruct (maybe_take_regex_done f l KNumber (m_number (co_unicode co)) w t r H E Hw Nw Ne (m_number_int _ t r Hi A D3))
      as [tk [l' [X1 [X2 [X3 [X4 [X5 X6]]]]]]].
    rewrite X1. cbn [bind]. exists tk, l'. split; [reflexivity|]. split; [exact X2|]. split; [exact X3|].
    unfold ast_of_ctoken. rewrite X5, X4, (int_no_dot t Hi). unfold into_number. rewrite X4.
    apply parse_signed_spec in Hz. rewrite Hz. reflexivity.
  - assert (Hi : float_shape t) by (exists a, b; auto).
    destruct (float_no_ws t Hi) as [Nw Ne].
    rewrite (maybe_take_regex_none l KDate _ w (t ++ r) E Hw BL (float_date_none _ t r Hi A)). cbn [bind].
    destruct (maybe_take_regex_done f l KNumber (m_number (co_unicode co)) w t r H E Hw Nw Ne (m_number_float _ t r Hi A D1))
      as [tk [l' [X1 [X2 [X3 [X4 [X5 X6]]]]]]].
    rewrite X1. cbn [bind]. exists tk, l'. split; [reflexivity|]. split; [exact X2|]. split; [exact X3|].
    unfold ast_of_ctoken. rewrite X5, X4, (float_dot t Hi), Hv. reflexivity.
  - pose proof Hq as [b [Et _]].
    assert (Eh : exists q, t ++ r = c_squote :: q) by (rewrite Et; rewrite <- !app_assoc; cbn; eauto). destruct Eh as [q Eh].
    assert (Aq : ascii (c_squote :: q)) by (rewrite <- Eh; exact A).
    rewrite (maybe_take_regex_none l KDate _ w (t ++ r) E Hw BL).
    2: { rewrite Eh. apply m_date_none_head; [exact Aq|reflexivity]. }
    cbn [bind]. rewrite (maybe_take_regex_none l KNumber _ w (t ++ r) E Hw BL).
    2: { rewrite Eh. apply m_number_none_head; [exact Aq|reflexivity|discriminate]. }
    cbn [bind].
    destruct (take_single_quoted_complete f l w t s r H E (in_line_spaces w Hw) Hq) as [tk [l' [X1 [X2 [X3 [X4 [X5 X6]]]]]]].
    unfold maybe_take_single_quoted_string. rewrite E, (span_app is_blank w (t ++ r) Hw BL), (quoted_has t s r Hq), X1. cbn [bind].
    exists tk, l'. split; [reflexivity|]. split; [exact X2|]. split; [exact X3|]. unfold ast_of_ctoken. rewrite X5, X4, Hv. reflexivity.
  - pose proof Hf as [_ Hff]. assert (Hwc : word_char c = true) by (cbn in Hff; apply andb_true_iff in Hff; tauto).
    assert (Hq : (c =? c_squote)%N = false /\ c <> c_minus).
    { unfold word_char, is_ascii_alnum, is_ascii_alpha, is_ascii_upper, is_ascii_lower, is_ascii_digit, c_underscore, c_squote, c_minus in *. lia. }
    destruct Hq as [Hq Hm].
    rewrite (maybe_take_regex_none l KDate _ w ((c :: t) ++ r) E Hw BL) by (apply m_date_none_head; [exact A|exact Hc]). cbn [bind].
    rewrite (maybe_take_regex_none l KNumber _ w ((c :: t) ++ r) E Hw BL) by (apply m_number_none_head; assumption). cbn [bind].
    unfold maybe_take_single_quoted_string. rewrite E, (span_app is_blank w ((c :: t) ++ r) Hw BL). cbn [app has_quoted]. rewrite Hq. cbn [andb bind].
    destruct (maybe_take_regex_done f l KIdentifier (m_identifier (co_unicode co)) w (c :: t) r H E Hw (word_no_ws _ Hff) ltac:(discriminate)
      (m_identifier_done _ (c :: t) r Hf A2 D2)) as [tk [l' [X1 [X2 [X3 [X4 [X5 X6]]]]]]].
    rewrite X1. exists tk, l'. split; [reflexivity|]. split; [exact X2|]. split; [exact X3|].
    unfold ast_of_ctoken. rewrite X5, X4. reflexivity.
Qed.

(** ** The list *)
Lemma starts_with_spec p s : starts_with p s = true <-> exists r, s = p ++ r.
Proof.
  unfold starts_with. destruct (strip_prefix p s) as [r|] eqn:E.
  - apply strip_prefix_spec in E. split; [eauto|reflexivity].
  - split; [discriminate|]. intros [r ->]. rewrite strip_prefix_app in E. discriminate.
Qed.
Lemma peek_close_spec l : peek_close_parenthesis l = true <-> exists w r, in_line w /\ cl_input l = w ++ lit ")" ++ r.
Proof.
  unfold peek_close_parenthesis. split.
  - destruct (span is_blank (cl_input l)) as [w b] eqn:E. apply span_spec in E as [E [F _]]. intro H.
    apply starts_with_spec in H as [r ->]. eauto.
  - intros [w [r [Hw E]]]. rewrite E. rewrite span_app; [|exact Hw|reflexivity]. apply starts_with_spec. eauto.
Qed.
Lemma in_list_loop_ok co f : forall n l acc, wf f l -> length (cl_input l) < n ->
  match in_list_loop n co f l acc with
  | Ok (vs, l') => wf f l' /\ exists x ns, vs = acc ++ ns /\ cl_input l = x ++ cl_input l' /\ items_text co false x ns
      /\ peek_close_parenthesis l' = true
  | Err _ => True | Panic | NoFuel => False
  end.
Proof.
  induction n as [|n IH]; intros l acc H Hl; [lia|]. cbn [in_list_loop].
  pose proof (in_list_token_ok co f l H) as T. destruct (in_list_token co f l) as [[[t l']|]| | |]; try contradiction; cbn [bind].
  2: { edestruct (wf_unknown (A:=list node * clexer) f _ H) as [e ->]. exact I. }
  destruct T as [W [Hlt T]]. destruct (ast_of_ctoken co f t) as [a| | |]; try contradiction; auto. cbn [bind].
  destruct T as [w [x [Hw [E Hx]]]]. destruct (peek_close_parenthesis l') eqn:P.
  - split; [exact W|]. exists (w ++ x), [a]. split; [reflexivity|]. split; [rewrite E, <- app_assoc; reflexivity|].
    split; [apply is_one; assumption|exact P].
  - specialize (IH l' (acc ++ [a]) W ltac:(lia)). destruct (in_list_loop n co f l' (acc ++ [a])) as [[vs l2]| | |]; auto.
    destruct IH as [W2 [y [ns [-> [E2 [Hy P2]]]]]]. split; [exact W2|]. exists (w ++ x ++ [] ++ y), (a :: ns).
    split; [rewrite <- app_assoc; reflexivity|]. split; [rewrite E, E2, <- !app_assoc; reflexivity|].
    split; [|exact P2]. apply is_more; auto. reflexivity. discriminate.
Qed.
Lemma items_prefix co strict w x ns : in_line w -> items_text co strict x ns -> items_text co strict (w ++ x) ns.
Proof.
  intros Hw [v t n Hv Ht|v t n w' r ns' Hv Ht Hw' Hs Hr]; rewrite app_assoc; constructor; auto; apply in_line_app; auto.
Qed.
Lemma items_head co strict x ns : items_text co strict x ns -> exists w c x', x = w ++ c :: x' /\ in_line w /\ is_ws c = false /\ c <> c_rparen.
Proof.
  intros [v t n Hv Ht|v t n w' r ns' Hv Ht Hw' Hs Hr]; destruct (item_head co t n Ht) as [c [t' [-> [H1 H2]]]]; cbn [app]; eauto 10.
Qed.
Lemma in_list_loop_done co f : forall x ns, items_text co true x ns -> forall n l acc w2 r, wf f l ->
  cl_input l = x ++ w2 ++ lit ")" ++ r -> in_line w2 -> length (cl_input l) < n ->
  exists l', in_list_loop n co f l acc = Ok (acc ++ ns, l') /\ cl_input l' = w2 ++ lit ")" ++ r /\ wf f l'.
Proof.
  assert (IS : forall w2 r, in_line w2 -> item_stop (w2 ++ lit ")" ++ r)).
  { intros [|c w2] r Hw; [right; reflexivity|]. left. apply in_line_spaces in Hw. cbn in Hw. apply andb_true_iff in Hw. tauto. }
  assert (G : forall x ns, items_text co true x ns -> forall w n l acc w2 r, in_line w -> wf f l ->
    cl_input l = w ++ x ++ w2 ++ lit ")" ++ r -> in_line w2 -> length (cl_input l) < n ->
    exists l', in_list_loop n co f l acc = Ok (acc ++ ns, l') /\ cl_input l' = w2 ++ lit ")" ++ r /\ wf f l').
  { intros x ns Hx. induction Hx as [v t a Hv Ht|v t a w' rr ns Hv Ht Hw' Hs Hr IH]; intros w n l acc w2 r Hw H E Hw2 Hn.
    - destruct n as [|n]; [lia|]. cbn [in_list_loop].
      assert (E1 : cl_input l = (w ++ v) ++ t ++ w2 ++ lit ")" ++ r) by (rewrite E, <- !app_assoc; reflexivity).
      destruct (in_list_token_done co f l (w ++ v) t a _ H E1) as [tk [l' [X1 [X2 [X3 X4]]]]];
        [apply in_line_app; auto|exact Ht|apply IS; exact Hw2|].
      rewrite X1. cbn [bind]. rewrite X4. cbn [bind].
      assert (P : peek_close_parenthesis l' = true) by (apply peek_close_spec; eauto). rewrite P. eauto.
    - destruct n as [|n]; [lia|]. cbn [in_list_loop].
      assert (E1 : cl_input l = (w ++ v) ++ t ++ w' ++ rr ++ w2 ++ lit ")" ++ r) by (rewrite E, <- !app_assoc; reflexivity).
      destruct (in_list_token_done co f l (w ++ v) t a _ H E1) as [tk [l' [X1 [X2 [X3 X4]]]]]; [apply in_line_app; auto|exact Ht| |].
      { specialize (Hs eq_refl). destruct w' as [|c w']; [congruence|]. left. apply in_line_spaces in Hw'. cbn in Hw'.
        apply andb_true_iff in Hw'. tauto. }
      rewrite X1. cbn [bind]. rewrite X4. cbn [bind].
      assert (P : peek_close_parenthesis l' = false).
      { unfold peek_close_parenthesis. rewrite X2. destruct (items_head _ _ _ _ Hr) as [v' [c [x' [-> [Hv' [Hc Hcp]]]]]].
        rewrite <- !app_assoc, app_assoc. cbn [app]. rewrite span_app.
        - destruct (starts_with (lit ")") (c :: x' ++ w2 ++ lit ")" ++ r)) eqn:S; [|reflexivity].
          apply starts_with_spec in S as [q S]. inversion S. subst. destruct Hcp. reflexivity.
        - apply (in_line_app w' v'). auto.
        - cbn. unfold is_blank. rewrite Hc. reflexivity. }
      rewrite P. destruct (IH w' n l' (acc ++ [a]) w2 r Hw' X3 X2 Hw2) as [l2 [Y1 [Y2 Y3]]].
      + rewrite X2, E1 in *. destruct (item_head _ _ _ Ht) as [c [t' [-> _]]]. rewrite !app_length in *. cbn [length] in *. lia.
      + rewrite Y1, <- app_assoc. cbn [app]. eauto. }
  intros x ns Hx n l acc w2 r H E Hw2 Hn. apply (G x ns Hx [] n l acc w2 r); auto. reflexivity.
Qed.
