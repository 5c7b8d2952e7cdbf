(** * ReadTerminates: reading a file ends, whatever its text (also with multi-byte characters). *)
From Verif Require Import Base BaseProofs Csvp CsvpProofs SourceCode Ast AstLexer AstParser AstLexerProofs AstParserProofs FormulaInv CodeSectionProofs Options CellLexer CellParser CellSpec CellProofs PropCsvp Sheet.

Notation left l := (length (cl_input l)).
(** ends, and does not give back input *)
Definition ends {A} (l : clexer) (x : outcome cell_error (A * clexer)) : Prop :=
  match x with Ok (_, l') => left l' <= left l | NoFuel => False | _ => True end.
(** ends, and consumes something *)
Definition eats {A} (l : clexer) (x : outcome cell_error (A * clexer)) : Prop :=
  match x with Ok (_, l') => left l' < left l | NoFuel => False | _ => True end.
Definition ends1 (l : clexer) (x : outcome cell_error clexer) : Prop :=
  match x with Ok l' => left l' <= left l | NoFuel => False | _ => True end.
Lemma eats_ends {A} l (x : outcome cell_error (A * clexer)) : eats l x -> ends l x.
Proof. unfold eats, ends. destruct x as [[a l']| | |]; auto. intro; lia. Qed.
Lemma ends_from {A} l l1 (x : outcome cell_error (A * clexer)) : left l1 <= left l -> ends l1 x -> ends l x.
Proof. unfold ends. destruct x as [[a l']| | |]; auto. intros; lia. Qed.
Lemma eats_from {A} l l1 (x : outcome cell_error (A * clexer)) : left l1 <= left l -> eats l1 x -> eats l x.
Proof. unfold eats. destruct x as [[a l']| | |]; auto. intros; lia. Qed.
Lemma ends_bind {A B} l (x : outcome cell_error (A * clexer)) (k : A * clexer -> outcome cell_error (B * clexer)) :
  ends l x -> (forall a l', left l' <= left l -> ends l' (k (a, l'))) -> ends l (do y <- x; k y).
Proof. intros Hx Hk. destruct x as [[a l']| | |]; cbn [bind]; auto. cbn in Hx. eapply ends_from; eauto. Qed.
Lemma ends_bind1 {B} l (x : outcome cell_error clexer) (k : clexer -> outcome cell_error (B * clexer)) :
  ends1 l x -> (forall l', left l' <= left l -> ends l' (k l')) -> ends l (do y <- x; k y).
Proof. intros Hx Hk. destruct x as [l'| | |]; cbn [bind]; auto. cbn in Hx. eapply ends_from; eauto. Qed.
Definition value_ends {A} (x : outcome cell_error A) : Prop := x <> NoFuel.
Lemma ends_value {A B} l (x : outcome cell_error A) (k : A -> outcome cell_error (B * clexer)) :
  value_ends x -> (forall a, ends l (k a)) -> ends l (do y <- x; k y).
Proof. unfold value_ends. intros Hx Hk. destruct x as [a| | |]; cbn [bind]; auto; try exact I. congruence. Qed.

Lemma report_ends {A} f s n : value_ends (report (A := A) f s n).
Proof. unfold value_ends, report. destruct (position_for_offset f n); discriminate. Qed.
Lemma report_ends2 {A} l f s n : ends l (report (A := A * clexer) f s n).
Proof. unfold report. destruct (position_for_offset f n); exact I. Qed.
Lemma report_eats {A} l f s n : eats l (report (A := A * clexer) f s n).
Proof. unfold report. destruct (position_for_offset f n); exact I. Qed.
Lemma trim_start_shorter s : length (trim_start s) <= length s.
Proof. induction s as [|c s IH]; cbn; [lia|]. destruct (is_ws c); cbn; lia. Qed.
Lemma ws_shorter l : left (take_whitespace l) <= left l.
Proof. apply trim_start_shorter. Qed.
Lemma strip_prefix_length p : forall s r, strip_prefix p s = Some r -> length s = length p + length r.
Proof.
  induction p as [|x p IH]; intros [|y s] r; cbn [strip_prefix]; try discriminate; [intros [= <-]; reflexivity| |].
  - intros [= <-]. reflexivity.
  - destruct (x =? y)%N; [|discriminate]. intro H. cbn [length]. rewrite (IH _ _ H). reflexivity.
Qed.
Lemma move_shorter l n : match move_input (E := cell_error) l n with Ok l' => left l' <= left l /\ (0 < n -> left l' < left l) | NoFuel => False | _ => True end.
Proof.
  unfold move_input. destruct (byte_split n (cl_input l)) as [[a r]|] eqn:E; [|exact I]. apply byte_split_spec in E as [E U]. cbn [cl_input]. rewrite E, app_length.
  split; [lia|]. intro H. destruct a; [cbn in U; lia|cbn; lia].
Qed.
Lemma take_ends f l sub : ends1 l (take f l sub).
Proof.
  unfold take. pose proof (ws_shorter l). destruct (strip_prefix _ _) as [r|] eqn:E; [|unfold unknown_string, report; destruct (position_for_offset _ _); exact I].
  apply strip_prefix_length in E. cbn [ends1 cl_input]. lia.
Qed.
Lemma utf8_pos c s : 0 < utf8_len (c :: s).
Proof. unfold utf8_len, char_utf8_len. cbn. destruct (c <? 128)%N; [lia|]. destruct (c <? 2048)%N; [lia|]. destruct (c <? 65536)%N; lia. Qed.
Lemma take_while_eats f l k p : eats l (take_while f l k p).
Proof.
  unfold take_while. pose proof (ws_shorter l) as W. destruct (span p _) as [m b]. destruct m as [|c m]; [apply report_eats|].
  pose proof (move_shorter (take_whitespace l) (utf8_len (c :: m))) as M. destruct (move_input _ _) as [l'| | |]; cbn [bind eats]; auto.
  pose proof (utf8_pos c m). destruct M as [_ M]. specialize (M H). lia.
Qed.
Lemma take_while_ends f l k p : ends l (take_while f l k p).
Proof. apply eats_ends, take_while_eats. Qed.
Lemma take_color_ends co f l : ends l (take_color co f l).
Proof.
  unfold take_color. pose proof (ws_shorter l) as W. destruct (color_loop _ _ _ _) as [m|]; [|apply report_ends2].
  pose proof (move_shorter (take_whitespace l) (utf8_len m)) as M. destruct (move_input _ _) as [l'| | |]; cbn [bind ends]; auto. lia.
Qed.
Lemma take_single_eats f l : eats l (take_single_quoted_string f l).
Proof.
  unfold take_single_quoted_string. pose proof (ws_shorter l) as W. destruct (cl_input (take_whitespace l)) as [|c r] eqn:E; [apply report_eats|].
  destruct (c =? c_squote)%N; [|apply report_eats]. destruct (quoted_loop r false) as [[m n]|]; [|apply report_eats].
  pose proof (move_shorter (take_whitespace l) (S n)) as M. destruct (move_input _ _) as [l'| | |]; cbn [bind eats]; auto. destruct M as [_ M]. specialize (M ltac:(lia)). rewrite E in M. lia.
Qed.
Lemma take_string_ends co f l : ends l (take_string co f l).
Proof.
  unfold take_string. apply (ends_from _ (take_whitespace l)); [apply ws_shorter|].
  destruct (cl_input (take_whitespace l)) as [|c r]; [apply take_while_ends|]. destruct (c =? c_squote)%N; [apply eats_ends, take_single_eats|apply take_while_ends].
Qed.
(** a match that has a character that is not white space *)
Definition solid (m : matcher) : Prop := forall s a r, m s = Some (a, r) -> exists c, In c a /\ is_ws c = false.
Lemma trim_solid s c : In c s -> is_ws c = false -> trim s <> [].
Proof.
  intros H W. unfold trim, trim_end. assert (K : forall s, In c s -> In c (trim_start s)).
  { induction s0 as [|x s0 IH]; intros []; cbn [trim_start]; [subst; rewrite W; left; reflexivity|]. destruct (is_ws x); [auto|right; assumption]. }
  assert (X : In c (rev (trim_start (rev (trim_start s))))). { apply in_rev. rewrite rev_involutive. apply K. apply in_rev. rewrite rev_involutive. apply K. exact H. }
  intro N. rewrite N in X. exact X.
Qed.
Lemma regex_eats l k m : solid m ->
  match maybe_take_regex l k m with Ok (Some (_, l')) => left l' < left l | NoFuel => False | _ => True end.
Proof.
  intro S. unfold maybe_take_regex. destruct (span is_blank (cl_input l)) as [ws body]. destruct (m body) as [[a r]|] eqn:E; [|exact I].
  destruct (S _ _ _ E) as [c [Hc W]]. pose proof (trim_solid (ws ++ a) c ltac:(rewrite in_app_iff; auto) W) as T.
  pose proof (move_shorter l (length ws)) as M1. destruct (move_input l (length ws)) as [l1| | |]; cbn [bind]; auto.
  pose proof (move_shorter l1 (utf8_len (trim (ws ++ a)))) as M2. destruct (move_input l1 _) as [l2| | |]; cbn [bind]; auto.
  destruct (trim (ws ++ a)) as [|x t]; [congruence|]. pose proof (utf8_pos x t). destruct M2 as [_ M2]. specialize (M2 H). lia.
Qed.
From Coq Require Import ZifyBool ZifyN.
Lemma digit_not_ws u c : is_digit u c = true -> is_ws c = false.
Proof.
  unfold is_digit. destruct (is_ascii c) eqn:A; [|intro H; apply andb_true_iff in H as [H _]; now apply negb_true_iff in H].
  unfold is_ascii_digit, is_ws. lia.
Qed.
Lemma word_not_ws u c : is_word u c = true -> is_ws c = false.
Proof.
  unfold is_word. destruct (is_ascii c) eqn:A; [|intro H; apply andb_true_iff in H as [H _]; now apply negb_true_iff in H].
  unfold is_ascii_word, is_ascii_alnum, is_ascii_alpha, is_ascii_upper, is_ascii_lower, is_ascii_digit, is_ws. lia.
Qed.
Lemma span_head p s a r : span p s = (a, r) -> forall c, In c a -> p c = true.
Proof.
  revert a r. induction s as [|x s IH]; cbn [span]; intros a r; [intros [= <- <-] c []|].
  destruct (p x) eqn:E; [|intros [= <- <-] c []]. destruct (span p s) as [a' r'] eqn:Q. intros [= <- <-] c [->|H]; [exact E|exact (IH _ _ eq_refl c H)].
Qed.
Lemma solid_plus p : (forall c, p c = true -> is_ws c = false) -> solid (m_plus p).
Proof.
  intros H s a r. unfold m_plus. destruct (span p s) as [[|c x] y] eqn:E; [discriminate|]. intros [= <- <-]. exists c.
  split; [left; reflexivity|]. apply H. eapply span_head; [exact E|left; reflexivity].
Qed.
Lemma solid_seq a b : solid a -> solid (m_seq a b).
Proof.
  intros H s x r. unfold m_seq. destruct (a s) as [[u v]|] eqn:E; [|discriminate]. destruct (b v) as [[y z]|]; [|discriminate]. intros [= <- <-].
  destruct (H _ _ _ E) as [c [I W]]. exists c. rewrite in_app_iff. auto.
Qed.
Lemma solid_digits u n : solid (m_digits u (S n)).
Proof.
  intros [|c s] a r; cbn [m_digits]; [discriminate|]. destruct (is_digit u c) eqn:E; [|discriminate]. destruct (m_digits u n s) as [[x y]|]; [|discriminate].
  intros [= <- <-]. exists c. split; [left; reflexivity|eapply digit_not_ws; eauto].
Qed.
Lemma solid_range u lo hi : solid (m_range u (S lo) hi).
Proof.
  intros s a r. unfold m_range. destruct (m_digits_up_to u hi s) as [x y] eqn:E. destruct (length x <? S lo) eqn:L; [discriminate|]. intros [= <- <-].
  destruct hi as [|h]; [cbn in E; injection E as <- <-; discriminate|]. destruct s as [|c s]; cbn [m_digits_up_to] in E; [injection E as <- <-; discriminate|].
  destruct (is_digit u c) eqn:D; [|injection E as <- <-; discriminate]. destruct (m_digits_up_to u h s). injection E as <- <-. exists c. split; [left; reflexivity|eapply digit_not_ws; eauto].
Qed.
Lemma solid_date u : solid (m_date u).
Proof.
  intros s a r. unfold m_date. destruct (m_iso_date u s) as [x|] eqn:E.
  - intros [= ->]. exact (solid_seq _ _ (solid_digits u 3) _ _ _ E).
  - intro H. exact (solid_seq _ _ (solid_range u 0 2) _ _ _ H).
Qed.
Lemma solid_number u : solid (m_number u).
Proof.
  intros s a r. unfold m_number. destruct (match s with c :: r0 => if (c =? c_minus)%N then ([c], r0) else ([], s) | [] => ([], s) end) as [sg s1].
  destruct (span (is_digit u) s1) as [[|c x] y] eqn:E; [discriminate|].
  assert (W : is_ws c = false) by (eapply digit_not_ws, span_head; [exact E|left; reflexivity]).
  destruct (m_seq _ _ y) as [[b z]|]; intros [= <- <-]; exists c; (split; [rewrite !in_app_iff; cbn; auto|exact W]).
Qed.

Lemma or_error_ends {A} f t m (x : option A) : value_ends (or_error f t m x).
Proof. destruct x; cbn [or_error]; [discriminate|apply report_ends]. Qed.
Lemma rgb_ends f t : value_ends (rgb_of_token f t).
Proof.
  unfold rgb_of_token. destruct (parse_rgb (ct_text t)) eqn:E; try discriminate; [apply report_ends|].
  exfalso. revert E. assert (X : forall w d s, parse_slices w d s <> NoFuel).
  { intros w d s. unfold parse_slices. repeat (match goal with |- context [match ?x with Some _ => _ | None => _ end] => destruct x as [[? ?]|] || destruct x end; try discriminate). }
  unfold parse_rgb. cbn zeta. repeat match goal with |- (if ?b then _ else _) = _ -> False => destruct b end; try apply X. discriminate.
Qed.
Lemma into_date_ends co f t : value_ends (into_date co f t).
Proof. apply or_error_ends. Qed.
Lemma into_number_ends f t : value_ends (into_number f t).
Proof. apply or_error_ends. Qed.
Lemma bind_value {A B} (x : outcome cell_error A) (k : A -> outcome cell_error B) : value_ends x -> (forall a, value_ends (k a)) -> value_ends (do y <- x; k y).
Proof. unfold value_ends. destruct x; cbn [bind]; auto; congruence. Qed.
Lemma ctoken_ends co f t : value_ends (ast_of_ctoken co f t).
Proof.
  unfold ast_of_ctoken. destruct (ct_kind t); try discriminate.
  - apply bind_value; [apply into_date_ends|discriminate].
  - destruct (existsb _ _); (apply bind_value; [apply or_error_ends|discriminate]).
  - destruct (existsb _ _); (apply bind_value; [apply or_error_ends|discriminate]).
  - destruct (text_unquote _); [apply report_ends|discriminate].
Qed.
Lemma take_date_ends co f l : ends l (take_date co f l).
Proof.
  unfold take_date. pose proof (ws_shorter l) as W. pose proof (regex_eats (take_whitespace l) KDate (m_date (co_unicode co)) (solid_date _)) as R.
  destruct (maybe_take_regex _ _ _) as [[[t l']|]| | |]; cbn [bind ends]; auto; [lia|apply report_ends2].
Qed.
Lemma one_ends {A} tk (conv : field -> ctoken -> outcome cell_error A) f l :
  (forall f l, ends l (tk f l)) -> (forall f t, value_ends (conv f t)) -> ends l (one_in_parens tk conv f l).
Proof.
  intros Ht Hc. unfold one_in_parens. apply ends_bind1; [apply take_ends|]. intros l1 _. apply ends_bind; [apply Ht|]. intros t l2 _. specialize (Hc f t).
  destruct (conv f t) as [v|e| |]; try exact I; [..|congruence].
  - apply ends_bind1; [apply take_ends|]. intros l3 _. cbn. lia.
  - apply ends_bind1; [apply take_ends|]. intros l3 _. exact I.
Qed.
Lemma two_ends {A} tk (conv : field -> ctoken -> outcome cell_error A) f l :
  (forall f l, ends l (tk f l)) -> (forall f t, value_ends (conv f t)) -> ends l (two_in_parens tk conv f l).
Proof.
  intros Ht Hc. unfold two_in_parens. apply ends_bind1; [apply take_ends|]. intros l1 _. apply ends_bind; [apply Ht|]. intros t l2 _.
  apply ends_value; [apply Hc|]. intro a. apply ends_bind; [apply Ht|]. intros t2 l3 _. apply ends_value; [apply Hc|]. intro b.
  apply ends_bind1; [apply take_ends|]. intros l4 _. cbn. lia.
Qed.
Lemma in_list_token_eats co f l : match in_list_token co f l with Ok (Some (_, l')) => left l' < left l | NoFuel => False | _ => True end.
Proof.
  unfold in_list_token. pose proof (regex_eats l KDate _ (solid_date (co_unicode co))) as R1. destruct (maybe_take_regex l KDate _) as [[[t l']|]| | |]; cbn [bind]; auto.
  pose proof (regex_eats l KNumber _ (solid_number (co_unicode co))) as R2. destruct (maybe_take_regex l KNumber _) as [[[t l']|]| | |]; cbn [bind]; auto.
  unfold maybe_take_single_quoted_string. pose proof (take_single_eats f l) as Q.
  pose proof (regex_eats l KIdentifier _ (solid_plus _ (word_not_ws (co_unicode co)))) as R3.
  destruct (span is_blank (cl_input l)) as [w b]. destruct (has_quoted b); cbn [bind]; [|exact R3].
  destruct (take_single_quoted_string f l) as [[t l']| | |]; cbn [bind]; auto.
Qed.
Lemma in_list_loop_ends co f : forall n l acc, left l < n -> ends l (in_list_loop n co f l acc).
Proof.
  induction n as [|n IH]; intros l acc H; [lia|]. cbn [in_list_loop]. pose proof (in_list_token_eats co f l) as T.
  destruct (in_list_token co f l) as [[[t l']|]| | |]; cbn [bind]; auto; [|apply report_ends2].
  apply ends_value; [apply ctoken_ends|]. intro a. destruct (peek_close_parenthesis l'); [cbn; lia|]. apply (ends_from _ l'); [lia|]. apply IH. lia.
Qed.
Lemma pmap_ends {A B} (g : A -> B) p f l : (forall f l, ends l (p f l)) -> ends l (pmap g p f l).
Proof. intro H. unfold pmap. apply ends_bind; [apply H|]. intros a l' _. cbn. lia. Qed.
Lemma validation_ends co k f l : ends l (validation_args co k f l).
Proof.
  assert (D1 : forall f l, ends l (one_date co f l)) by (intros; apply one_ends; [intros; apply take_date_ends|intros; apply into_date_ends]).
  assert (D2 : forall f l, ends l (two_dates co f l)) by (intros; apply two_ends; [intros; apply take_date_ends|intros; apply into_date_ends]).
  assert (N1 : forall f l, ends l (one_number f l)) by (intros; apply one_ends; [intros; apply take_while_ends|intros; apply into_number_ends]).
  assert (N2 : forall f l, ends l (two_numbers f l)) by (intros; apply two_ends; [intros; apply take_while_ends|intros; apply into_number_ends]).
  assert (S1 : forall f l, ends l (one_string co f l)) by (intros; apply one_ends; [intros; apply take_string_ends|discriminate]).
  destruct k; cbn [validation_args]; try (apply pmap_ends; assumption); try (cbn; lia).
  - apply pmap_ends. intros f' l'. unfold in_list. apply ends_bind1; [apply take_ends|]. intros l1 _. apply ends_bind; [apply in_list_loop_ends; lia|]. intros vs l2 _.
    apply ends_bind1; [apply take_ends|]. intros l3 _. cbn. lia.
  - apply pmap_ends. intros f' l'. unfold in_range. apply ends_bind1; [apply take_ends|]. intros l1 _. apply ends_bind; [apply take_while_ends|]. intros t l2 _.
    apply ends_value; [apply or_error_ends|]. intro a. apply ends_bind1; [apply take_ends|]. intros l3 _. cbn. lia.
Qed.
Lemma right_side_ends co f l : ends l (take_option_right_side co f l).
Proof. unfold take_option_right_side. apply ends_bind1; [apply take_ends|]. intros l1 _. apply take_while_ends. Qed.
Lemma maybe_take_shorter l sub : match maybe_take l sub with (Some l', l2) => left l' <= left l /\ left l2 <= left l | (None, l2) => left l2 <= left l end.
Proof.
  unfold maybe_take. pose proof (ws_shorter l). destruct (strip_prefix _ _) eqn:E; [|assumption]. apply strip_prefix_length in E. cbn [cl_input]. lia.
Qed.
Lemma option_value_ends co is_row k name f l : ends l (option_value co is_row k name f l).
Proof.
  assert (W : forall A (of : str -> option A) m mk, ends l (word_option co of m mk f l)).
  { intros. unfold word_option. apply ends_bind; [apply right_side_ends|]. intros t l1 _. apply ends_value; [apply or_error_ends|]. intro. cbn. lia. }
  assert (C : forall mk, ends l (color_option co mk f l)).
  { intro. unfold color_option. apply ends_bind1; [apply take_ends|]. intros l1 _. apply ends_bind; [apply take_color_ends|]. intros t l2 _.
    apply ends_value; [apply rgb_ends|]. intro. cbn. lia. }
  assert (T : forall mk, ends l (string_option co mk f l)).
  { intro. unfold string_option. apply ends_bind1; [apply take_ends|]. intros l1 _. apply ends_bind; [apply take_string_ends|]. intros t l2 _. cbn. lia. }
  destruct k; cbn [option_value]; auto; try (cbn; lia).
  - unfold validate_option. apply ends_bind; [apply right_side_ends|]. intros t l1 _. apply ends_value; [apply or_error_ends|]. intro k.
    apply pmap_ends. intros. apply validation_ends.
  - unfold fill_option. destruct (negb is_row); [apply report_ends2|]. pose proof (maybe_take_shorter l [c_eq]) as M. destruct (maybe_take l [c_eq]) as [[l1|] l2]; [|exact M].
    apply (ends_from _ l1); [lia|]. apply ends_bind; [apply take_while_ends|]. intros t l3 _. apply ends_value; [apply or_error_ends|]. intro. cbn. lia.
  - unfold font_size_option. apply ends_bind1; [apply take_ends|]. intros l1 _. apply ends_bind; [apply take_while_ends|]. intros t l2 _.
    apply ends_value; [apply or_error_ends|]. intro. cbn. lia.
  - unfold var_option. apply ends_bind; [apply right_side_ends|]. intros t l1 _. cbn. lia.
Qed.
Lemma parse_option_eats co is_row f l : eats l (parse_option co is_row f l).
Proof.
  unfold parse_option. pose proof (take_while_eats f l KOptionName (is_alnum (co_unicode co))) as T. fold (take_option_name co f l) in T.
  destruct (take_option_name co f l) as [[name l1]| | |]; cbn [bind]; auto. cbn [eats] in T.
  pose proof (or_error_ends f name MUnknownOption (okind_of (ct_text name))) as R. destruct (or_error f name _ _) as [k| | |]; cbn [bind eats]; auto; try congruence.
  pose proof (option_value_ends co is_row k name f l1) as O. destruct (option_value _ _ _ _ _ _) as [[o l2]| | |]; auto. cbn [ends] in O. cbn. lia.
Qed.
Lemma options_end co is_row f : forall n l s, left l < n -> ends l (parse_cell_options n co is_row f l s).
Proof.
  induction n as [|n IH]; intros l s H; [lia|]. cbn [parse_cell_options]. pose proof (parse_option_eats co is_row f l) as P.
  destruct (parse_option co is_row f l) as [[o l1]| | |]; cbn [bind]; auto. cbn [eats] in P.
  pose proof (maybe_take_shorter l1 (lit "/")) as M. destruct (maybe_take l1 _) as [[l2|] l3].
  - apply (ends_from _ l2); [lia|]. apply IH. lia.
  - pose proof (maybe_take_shorter l3 (lit "]]")) as M2. destruct (maybe_take l3 _) as [[l4|] l5].
    + cbn [ends]. lia.
    + apply (ends_from _ l5); [lia|]. apply IH. lia.
Qed.
Lemma lists_end co f : forall n l parsed r, left l < n -> ends l (parse_option_lists n co f l parsed r).
Proof.
  induction n as [|n IH]; intros l parsed r H; [lia|]. cbn [parse_option_lists]. unfold maybe_take_start_options. pose proof (ws_shorter l) as W.
  destruct (strip_prefix (lit "[[") _) as [q|] eqn:E1; [|destruct (strip_prefix (lit "![[") _) as [q|] eqn:E2; [|exact W]].
  all: repeat match goal with |- ends _ (if ?b then _ else _) => destruct b; [apply report_ends2|] end.
  all: match goal with E : strip_prefix _ _ = Some _ |- _ => apply strip_prefix_length in E; cbn [lit length] in E end.
  all: match goal with |- ends _ (do _ <- parse_cell_options ?n ?co ?ir ?f ?l1 ?s; _) => pose proof (options_end co ir f n l1 s ltac:(lia)) as O; destruct (parse_cell_options n co ir f l1 s) as [[s' l2]| | |] end; cbn [bind]; auto.
  all: cbn [ends cl_input] in O; apply (ends_from _ l2); [cbn in *; lia|]; apply IH; cbn in *; lia.
Qed.
Lemma parse_cell_ends co f r : parse_cell co f r <> NoFuel.
Proof.
  unfold parse_cell. pose proof (lists_end co f (S (length (f_value f))) {| cl_input := f_value f; cl_offset := 0 |} None r ltac:(cbn; lia)) as H.
  destruct (parse_option_lists _ _ _ _ _ _) as [[[p r'] l]| | |]; cbn [bind]; try discriminate. destruct H.
Qed.
Lemma unknown_error_ends {A} u : unknown_error (A := A) u <> NoFuel.
Proof. unfold unknown_error. destruct (_ <=? _); [discriminate|]. destruct (byte_split _ _) as [[? ?]|]; discriminate. Qed.
Lemma ast_parse_ends o sg s : ast_parse o sg s <> NoFuel.
Proof.
  unfold ast_parse. destruct (ast_lex_total (o_unicode o) s) as [[lx ->]|[e ->]]; [|apply unknown_error_ends].
  set (ts := erase (lx_tokens lx)). pose proof (proj1 (parser_total o sg (parser_fuel ts)) 0 ts) as F. unfold parser_fuel in F at 1. specialize (F ltac:(lia)).
  cbn zeta. destruct (expr_bp (parser_fuel ts) o sg 0 ts) as [[e rest]| | |]; cbn in *; try contradiction; discriminate.
Qed.
Lemma section_ends o s : code_section_parse o s <> NoFuel.
Proof.
  unfold code_section_parse. destruct (ast_lex_total (o_unicode o) s) as [[lx ->]|[e ->]]; [|apply unknown_error_ends].
  destruct (parse_scope_total o (S (length (erase (lx_tokens lx)))) (erase (lx_tokens lx)) empty_scope []) as [[x E]|[e E]]; [lia| |];
    cbn zeta; rewrite E; cbn; discriminate.
Qed.
Lemma row_ends co fs : forall r, row_parse_cells co fs r <> NoFuel.
Proof.
  induction fs as [|f fs IH]; intro r; cbn [row_parse_cells]; [discriminate|]. unfold cell_parse, at_address, parse_formula.
  pose proof (parse_cell_ends co f r) as P. destruct (parse_cell co f r) as [[c r']| | |]; cbn [bind]; try discriminate; try congruence.
  destruct (starts_with _ _); cbn [bind].
  - pose proof (ast_parse_ends (co_oracle co) false (parsed_value c)) as A. destruct (ast_parse _ _ _); cbn [bind]; try discriminate; try congruence.
    specialize (IH r'). destruct (row_parse_cells co fs r') as [[cs r2]| | |]; cbn [bind]; try discriminate; congruence.
  - specialize (IH r'). destruct (row_parse_cells co fs r') as [[cs r2]| | |]; cbn [bind]; try discriminate; congruence.
Qed.
Lemma rows_end co : forall rs, parse_rows co rs <> NoFuel.
Proof.
  induction rs as [|fs rs IH]; cbn [parse_rows]; [discriminate|]. unfold row_parse. pose proof (row_ends co fs default_row) as R.
  destruct (row_parse_cells co fs default_row) as [[cs r]| | |]; cbn [bind]; try discriminate; try congruence. destruct (parse_rows co rs); cbn [bind]; try discriminate; congruence.
Qed.
(** Reading a source text always comes to an end: a program, an error, or a panic. *)
Theorem load_source_ends : forall co text, load_source co text <> NoFuel.
Proof.
  intros co text. unfold load_source.
  assert (S : forall src, sheet_parse co src <> NoFuel).
  { intro src. unfold sheet_parse. destruct (C06_total {| separator := c_comma; lines_above := length_of_code_section src |} (csv_section src)) as [[rs ->]|[e [i [c [-> _]]]]]; cbn [bind]; [|discriminate].
    pose proof (rows_end co rs) as R. destruct (parse_rows co rs); cbn [bind]; try discriminate; congruence. }
  specialize (S (source_code_new text)). destruct (code_section (source_code_new text)) as [s|].
  - pose proof (section_ends (co_oracle co) s) as C. destruct (code_section_parse (co_oracle co) s) as [[sc req]| | |]; cbn [bind]; try discriminate; try congruence.
    destruct (sheet_parse co _); cbn [bind]; try discriminate; congruence.
  - cbn [bind]. destruct (sheet_parse co _); cbn [bind]; try discriminate; congruence.
Qed.
