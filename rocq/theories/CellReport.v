(** * CellReport: errors in cells are located at characters of the cell. *)
From Coq Require Import ZifyBool ZifyN Sorting.Sorted.
From Verif Require Import Base BaseProofs Csvp CsvpSpec CsvpTotal Ast AstLexer AstParser AstLexerProofs LexTiling Options CellLexer CellParser CellSpec
  CellProofs CellProofs8 CellProofs9 SourceCode SourceSpec SourceCodeProofs Sheet ReportSpec ReportProofs.

Definition reported {A} (f : field) (x : outcome cell_error A) : Prop :=
  match x with Err e => exists j, position_for_offset f j = Some (ce_position e) | _ => True end.
Lemma report_reported {A} f s n : reported f (@report A f s n).
Proof. unfold report. destruct (position_for_offset f n) eqn:E; cbn; eauto. Qed.
Lemma bind_reported {A B} f (x : outcome cell_error A) (k : A -> outcome cell_error B) :
  reported f x -> (forall a, reported f (k a)) -> reported f (do y <- x; k y).
Proof. intros Hx Hk. destruct x; cbn [bind]; auto. Qed.
Lemma move_reported f l n : reported f (move_input (E := cell_error) l n).
Proof. unfold move_input. destruct (byte_split n _) as [[? ?]|]; exact I. Qed.
Ltac rep := repeat first
  [ exact I | apply report_reported | apply move_reported
  | match goal with
    | |- reported _ (bind _ _) => apply bind_reported; [|intro]
    | |- reported _ (let _ := ?x in _) => destruct x
    | |- reported _ (match ?x with _ => _ end) => destruct x
    | H : forall a b, reported _ _ |- _ => apply H
    | H : forall a, reported _ _ |- _ => apply H
    end ].
Lemma take_reported f l s : reported f (take f l s). Proof. unfold take, unknown_string. cbv zeta. rep. Qed.
Lemma take_while_reported f l k p : reported f (take_while f l k p). Proof. unfold take_while, unknown_string. cbv zeta. rep. Qed.
Lemma take_color_reported co f l : reported f (take_color co f l). Proof. unfold take_color, unknown_string. cbv zeta. rep. Qed.
Lemma take_single_reported f l : reported f (take_single_quoted_string f l). Proof. unfold take_single_quoted_string, unknown_string. cbv zeta. rep. Qed.
Lemma take_string_reported co f l : reported f (take_string co f l).
Proof. unfold take_string. cbv zeta. destruct (cl_input _); [apply take_while_reported|]. destruct (_ =? _)%N; [apply take_single_reported|apply take_while_reported]. Qed.
Lemma regex_reported f l k m : reported f (maybe_take_regex l k m). Proof. unfold maybe_take_regex. rep. Qed.
Lemma take_date_reported co f l : reported f (take_date co f l).
Proof. unfold take_date, unknown_string. cbv zeta. apply bind_reported; [apply regex_reported|]. intro. rep. Qed.
Lemma maybe_single_reported f l : reported f (maybe_take_single_quoted_string f l).
Proof. unfold maybe_take_single_quoted_string. destruct (span _ _). destruct (has_quoted _); [|exact I]. destruct (take_single_quoted_string f l); exact I. Qed.
Lemma or_error_reported {A} f t m (x : option A) : reported f (or_error f t m x). Proof. unfold or_error, token_error. rep. Qed.
Lemma rgb_reported f t : reported f (rgb_of_token f t). Proof. unfold rgb_of_token, token_error. rep. Qed.
Lemma into_number_reported f t : reported f (into_number f t). Proof. apply or_error_reported. Qed.
Lemma into_date_reported co f t : reported f (into_date co f t). Proof. apply or_error_reported. Qed.
Lemma ctoken_reported co f t : reported f (ast_of_ctoken co f t).
Proof.
  unfold ast_of_ctoken. destruct (ct_kind t); try exact I.
  - apply bind_reported; [apply into_date_reported|intro; exact I].
  - destruct (existsb _ _); (apply bind_reported; [apply or_error_reported|intro; exact I]).
  - destruct (existsb _ _); (apply bind_reported; [apply or_error_reported|intro; exact I]).
  - destruct (text_unquote _); [apply report_reported|exact I].
Qed.
Ltac rep2 := repeat first
  [ exact I | apply take_reported | apply take_while_reported | apply take_color_reported | apply take_string_reported | apply take_date_reported
  | apply or_error_reported | apply rgb_reported | apply ctoken_reported | apply regex_reported | apply maybe_single_reported | apply report_reported
  | match goal with
    | |- reported _ (bind _ _) => apply bind_reported; [|intro]
    | |- reported _ (let _ := ?x in _) => destruct x
    | |- reported _ (match ?x with _ => _ end) => destruct x
    end ].
Lemma one_reported {A} tk (conv : field -> ctoken -> outcome cell_error A) f l :
  (forall f l, reported f (tk f l)) -> (forall f t, reported f (conv f t)) -> reported f (one_in_parens tk conv f l).
Proof.
  intros Ht Hc. unfold one_in_parens. apply bind_reported; [apply take_reported|intro]. apply bind_reported; [apply Ht|intros [t l']].
  pose proof (Hc f t) as H. destruct (conv f t); try exact I; (apply bind_reported; [apply take_reported|intro]); apply bind_reported; try exact H; intro; exact I.
Qed.
Lemma two_reported {A} tk (conv : field -> ctoken -> outcome cell_error A) f l :
  (forall f l, reported f (tk f l)) -> (forall f t, reported f (conv f t)) -> reported f (two_in_parens tk conv f l).
Proof.
  intros Ht Hc. unfold two_in_parens. apply bind_reported; [apply take_reported|intro]. apply bind_reported; [apply Ht|intros [t l']].
  apply bind_reported; [apply Hc|intro]. apply bind_reported; [apply Ht|intros [t2 l2]]. apply bind_reported; [apply Hc|intro].
  apply bind_reported; [apply take_reported|intro]. exact I.
Qed.
Lemma in_list_token_reported co f l : reported f (in_list_token co f l).
Proof. unfold in_list_token. cbv zeta. rep2. Qed.
Lemma in_list_loop_reported co f : forall n l acc, reported f (in_list_loop n co f l acc).
Proof.
  induction n as [|n IH]; intros l acc; [exact I|]. cbn [in_list_loop]. apply bind_reported; [apply in_list_token_reported|intros [[t l']|]]; [|apply report_reported].
  apply bind_reported; [apply ctoken_reported|intro]. destruct (peek_close_parenthesis l'); [exact I|apply IH].
Qed.
Lemma pmap_reported {A B} (g : A -> B) p f l : reported f (p f l) -> reported f (pmap g p f l).
Proof. intro H. unfold pmap. apply bind_reported; [exact H|]. intros [a l']. exact I. Qed.
Lemma validation_reported co k f l : reported f (validation_args co k f l).
Proof.
  assert (D1 : forall f l, reported f (one_date co f l)) by (intros; apply one_reported; [intros; apply take_date_reported|intros; apply into_date_reported]).
  assert (D2 : forall f l, reported f (two_dates co f l)) by (intros; apply two_reported; [intros; apply take_date_reported|intros; apply into_date_reported]).
  assert (N1 : forall f l, reported f (one_number f l)) by (intros; apply one_reported; [intros; apply take_while_reported|intros; apply into_number_reported]).
  assert (N2 : forall f l, reported f (two_numbers f l)) by (intros; apply two_reported; [intros; apply take_while_reported|intros; apply into_number_reported]).
  assert (S1 : forall f l, reported f (one_string co f l)) by (intros; apply one_reported; [intros; apply take_string_reported|intros; exact I]).
  destruct k; cbn [validation_args]; try exact I; apply pmap_reported; auto.
  - unfold in_list. apply bind_reported; [apply take_reported|intro]. apply bind_reported; [apply in_list_loop_reported|intros [vs l']]. rep2.
  - unfold in_range, take_a1. rep2.
Qed.
Lemma right_side_reported co f l : reported f (take_option_right_side co f l).
Proof. unfold take_option_right_side, take_identifier. rep2. Qed.
Lemma option_value_reported co is_row k name f l : reported f (option_value co is_row k name f l).
Proof.
  assert (W : forall A (of : str -> option A) m mk, reported f (word_option co of m mk f l)).
  { intros. unfold word_option. apply bind_reported; [apply right_side_reported|intros [t l']]. rep2. }
  destruct k; cbn [option_value]; auto; try exact I.
  - unfold color_option. rep2.
  - unfold color_option. rep2.
  - unfold validate_option. apply bind_reported; [apply right_side_reported|intros [t l']]. apply bind_reported; [apply or_error_reported|intro].
    apply pmap_reported, validation_reported.
  - unfold fill_option, token_error, take_positive_number. rep2.
  - unfold color_option. rep2.
  - unfold string_option. rep2.
  - unfold font_size_option, take_positive_number. rep2.
  - unfold string_option. rep2.
  - unfold var_option. apply bind_reported; [apply right_side_reported|intros [t l']]. exact I.
Qed.
Lemma options_reported co is_row f : forall n l s, reported f (parse_cell_options n co is_row f l s).
Proof.
  induction n as [|n IH]; intros l s; [exact I|]. cbn [parse_cell_options]. apply bind_reported.
  - unfold parse_option, take_option_name. apply bind_reported; [apply take_while_reported|intros [t l']].
    apply bind_reported; [apply or_error_reported|intro]. apply option_value_reported.
  - intros [o l1]. destruct (maybe_take l1 (lit "/")) as [[l2|] l3]; [apply IH|].
    destruct (maybe_take l3 (lit "]]")) as [[l4|] l5]; [exact I|apply IH].
Qed.
Lemma lists_reported co f : forall n l parsed r, reported f (parse_option_lists n co f l parsed r).
Proof.
  induction n as [|n IH]; intros l parsed r; [exact I|]. cbn [parse_option_lists].
  destruct (maybe_take_start_options l) as [[[[st tok] l1]|] l2]; [|exact I].
  repeat match goal with |- reported _ (if ?b then _ else _) => destruct b; [apply report_reported|] end.
  apply bind_reported; [apply options_reported|intros [s l3]]. apply IH.
Qed.
Lemma parse_cell_reported co f r : reported f (parse_cell co f r).
Proof. unfold parse_cell. apply bind_reported; [apply lists_reported|]. intros [[p r'] l]. exact I. Qed.

(** ** Formulas *)
(** an ASCII text: the columns the lexer counts are inside the text *)
Lemma lex_bounds u : forall fuel p off ln acc N0, forallb is_ascii p = true -> off + length p <= N0 ->
  Forall (fun t => line_offset (tm_position t) < N0) acc ->
  match lex_loop fuel u p off ln acc with
  | Ok lx => Forall (fun t => line_offset (tm_position t) < N0) (lx_tokens lx)
  | Err ut => line_offset (ut_position ut) < N0
  | _ => True
  end.
Proof.
  induction fuel as [|fuel IH]; intros p off ln acc N0 A Hn Hacc; [exact I|]. cbn [lex_loop].
  destruct (span is_blank p) as [ws body] eqn:Hsp. destruct (span_spec _ _ _ _ Hsp) as [Ep _].
  destruct (first_match (matchers_ordered u) body) as [[[t m] rest]|] eqn:Hm.
  2:{ destruct (forallb is_ws p) eqn:W; cbn [lx_tokens ut_position line_offset]; [apply Forall_rev; exact Hacc|]. destruct p; [discriminate|cbn in Hn; lia]. }
  destruct (first_match_split _ _ _ _ _ Hm) as [Eb Hne]. rewrite Ep, Eb in A, Hn. rewrite !forallb_app in A. rewrite !app_length in Hn.
  assert (Hm0 : 0 < length m) by (destruct m; [congruence|cbn; lia]).
  assert (Hu : utf8_len (ws ++ m) = length ws + length m) by (rewrite utf8_len_ascii by (rewrite forallb_app; lia); apply app_length).
  assert (K : forall acc' off' ln', off' + length rest <= N0 -> Forall (fun t => line_offset (tm_position t) < N0) acc' ->
    match (if forallb is_ws rest then Ok {| lx_tokens := rev acc'; lx_eof := {| line_number := ln'; line_offset := off' |} |}
           else lex_loop fuel u rest off' ln' acc') with
    | Ok lx => Forall (fun t => line_offset (tm_position t) < N0) (lx_tokens lx)
    | Err ut => line_offset (ut_position ut) < N0
    | _ => True end).
  { intros acc' off' ln' Ho Ha. destruct (forallb is_ws rest); [apply Forall_rev; exact Ha|]. apply IH; auto. lia. }
  destruct t; apply K; try exact Hacc; try (constructor; [cbn [tm_position line_offset]; lia|exact Hacc]); rewrite ?Hu; lia.
Qed.
Lemma formula_bounds o sg s e : forallb is_ascii s = true -> ast_parse o sg s = Err e ->
  pe_eof e = true \/ line_offset (pe_position e) < length s.
Proof.
  intro A. unfold ast_parse.
  assert (B : match ast_lex (o_unicode o) s with
              | Ok lx => Forall (fun t => line_offset (tm_position t) < length s) (lx_tokens lx)
              | Err ut => line_offset (ut_position ut) < length s
              | _ => True end).
  { unfold ast_lex. destruct (strip_prefix [c_eq] s) as [r|] eqn:E.
    - apply strip_prefix_spec in E. subst s. apply lex_bounds; [cbn in A; exact A|cbn; lia|constructor].
    - apply lex_bounds; auto. }
  destruct (ast_lex (o_unicode o) s) as [lx|ut| |]; try discriminate.
  - cbv zeta. destruct (bind _ _) as [?|pe| |]; try discriminate. cbn [locate]. unfold error_token.
    destruct (nth_error (lx_tokens lx) _) as [t|] eqn:En; intro X; injection X as <-; cbn [pe_eof pe_position]; [right|left; reflexivity].
    rewrite Forall_forall in B. apply B. eapply nth_error_In; eauto.
  - intro X. destruct (unknown_shown _ _ X) as [_ [-> _]]. right. exact B.
Qed.

(** ** Cells *)
Lemma position_some f j : j < length (f_positions f) -> exists p, position_for_offset f j = Some p.
Proof.
  intro H. unfold position_for_offset. destruct (Nat.leb_spec (length (f_positions f)) j); [lia|].
  destruct (nth_error (f_positions f) j) eqn:E; [eauto|]. apply nth_error_None in E. lia.
Qed.
Lemma cell_error_place co f r e : ascii (f_value f) -> located f -> cell_parse co f r = Err e ->
  le_address e = f_address f /\
  ((exists j, position_for_offset f j = Some (error_place e)) \/ eof_position f = Some (error_place e)).
Proof.
  intros A L. unfold cell_parse. pose proof (parse_cell_reported co f r) as R. pose proof (parse_cell_sound co f r A L) as S0.
  destruct (parse_cell co f r) as [[c r']|ce| |]; cbn [at_address bind]; try discriminate.
  2:{ intro X; injection X as <-. split; [reflexivity|]. left. exact R. }
  destruct S0 as [t [ls [v [Ev [_ [_ [_ [Ec _]]]]]]]].
  assert (Pv : parsed_value c = trim v) by (rewrite Ec; reflexivity).
  assert (Av : ascii v) by (rewrite Ev in A; apply ascii_app in A; tauto).
  unfold parse_formula. destruct (starts_with [c_eq] (parsed_value c)) eqn:Es; [|cbn [bind]; discriminate].
  destruct (ast_parse (co_oracle co) false (parsed_value c)) as [n|pe| |] eqn:Ep; cbn [bind]; try discriminate.
  intro X; injection X as <-. cbn [le_address]. split; [reflexivity|]. unfold error_place. cbn [le_error parse_error_in_field pe_position].
  unfold position_in_field.
  assert (Hlen : length (parsed_value c) <= length (f_positions f)).
  { unfold located in L. rewrite Ev, app_length in L. rewrite Pv.
    assert (length (trim v) <= length v).
    { unfold trim. destruct (trim_end_prefix (trim_start v)) as [b [E _]]. destruct (trim_start_suffix v) as [w [E2 _]].
      apply (f_equal (@length N)) in E, E2. rewrite app_length in E, E2. lia. }
    lia. }
  assert (Hne : 0 < length (parsed_value c)) by (destruct (parsed_value c); [discriminate|cbn; lia]).
  assert (Ap : ascii (parsed_value c)) by (rewrite Pv; apply ascii_trim; exact Av).
  destruct (formula_bounds _ _ _ _ Ap Ep) as [He|Hb].
  - rewrite He. right. unfold eof_position. destruct (rev (f_positions f)) eqn:E; [|reflexivity].
    apply (f_equal (@length _)) in E. rewrite rev_length in E. cbn in E. lia.
  - destruct (pe_eof pe).
    + right. unfold eof_position. destruct (rev (f_positions f)) eqn:E; [|reflexivity].
      apply (f_equal (@length _)) in E. rewrite rev_length in E. cbn in E. lia.
    + left. destruct (position_some f (line_offset (pe_position pe))) as [p Hp]; [lia|]. exists (line_offset (pe_position pe)). rewrite Hp. reflexivity.
Qed.

(** ** Lines *)
Lemma lines_aux_index : forall s cur i ch, one_line cur = true -> nth_error s i = Some ch -> ch <> c_nl ->
  exists line, nth_error (lines_aux s cur) (nl_count (firstn i s)) = Some line
    /\ (nth_error line (tail_len (cur ++ firstn i s)) = Some ch \/ ch = c_cr).
Proof.
  assert (T0 : forall cur, one_line cur = true -> tail_len cur = length cur).
  { intros cur H. rewrite <- (app_nil_l cur) at 1. rewrite tail_len_one_line by exact H. reflexivity. }
  (* the first line of [lines_aux s cur] *)
  assert (Hd : forall s cur k ch, nth_error cur k = Some ch -> exists line, nth_error (lines_aux s cur) 0 = Some line /\ (nth_error line k = Some ch \/ ch = c_cr)).
  { induction s as [|c s IH]; intros cur k ch Hk; cbn [lines_aux].
    - destruct cur as [|c cur]; [destruct k; discriminate|]. exists (c :: cur). auto.
    - destruct (c =? c_nl)%N.
      + exists (strip_cr cur). split; [reflexivity|]. unfold strip_cr. destruct (rev cur) as [|x r] eqn:Er; [auto|].
        destruct (N.eqb_spec x c_cr) as [->|]; [|auto].
        assert (E2 : cur = rev r ++ [c_cr]) by (rewrite <- (rev_involutive cur), Er; reflexivity). rewrite E2 in Hk.
        destruct (Nat.lt_ge_cases k (length (rev r))) as [L|L].
        * rewrite nth_error_app1 in Hk by exact L. auto.
        * rewrite nth_error_app2 in Hk by exact L. right. destruct (k - length (rev r)) as [|[|]]; cbn in Hk; congruence.
      + apply (IH (cur ++ [c]) k ch). rewrite nth_error_app1; [exact Hk|]. apply nth_error_Some. congruence. }
  induction s as [|c s IH]; intros cur i ch Hc Hi Hn; [destruct i; discriminate|].
  destruct i as [|i].
  - cbn in Hi. injection Hi as ->. cbn [firstn lines_aux]. rewrite app_nil_r, T0 by exact Hc.
    destruct (N.eqb_spec ch c_nl); [congruence|]. apply Hd. rewrite nth_error_app2, Nat.sub_diag by lia. reflexivity.
  - cbn [nth_error] in Hi. cbn [firstn lines_aux]. destruct (N.eqb_spec c c_nl) as [->|Hcn].
    + destruct (IH [] i ch eq_refl Hi Hn) as [line [L1 L2]]. exists line. change (nl_count (c_nl :: firstn i s)) with (S (nl_count (firstn i s))).
      split; [exact L1|]. replace (tail_len (cur ++ c_nl :: firstn i s)) with (tail_len ([] ++ firstn i s)); [exact L2|]. cbn [app].
      generalize (firstn i s) as y. clear. intro y. induction y as [|c y IH] using rev_ind.
      * rewrite tail_len_snoc. reflexivity.
      * replace (cur ++ c_nl :: y ++ [c]) with ((cur ++ c_nl :: y) ++ [c]) by (rewrite <- app_assoc; reflexivity). rewrite !tail_len_snoc, IH. reflexivity.
    + assert (Ho : one_line (cur ++ [c]) = true) by (apply one_line_app; split; [exact Hc|]; unfold one_line; cbn; lia).
      destruct (IH (cur ++ [c]) i ch Ho Hi Hn) as [line [L1 L2]]. exists line. rewrite <- app_assoc in L2. cbn [app] in L2.
      replace (nl_count (c :: firstn i s)) with (nl_count (firstn i s)); [auto|]. unfold nl_count. cbn [filter]. destruct (N.eqb_spec c c_nl); [congruence|reflexivity].
Qed.
Lemma csv_stands text i ch : nth_error (csv_section (source_code_new text)) i = Some ch -> ch <> c_nl ->
  stands_at text i (length_of_code_section (source_code_new text) + true_line (csv_section (source_code_new text)) i)
    (true_column (csv_section (source_code_new text)) i).
Proof.
  unfold stands_at, true_line, true_column. set (csv := csv_section (source_code_new text)). intros Hi Hn. exists ch.
  change (length (filter _ ?l)) with (nl_count l). change (length (fst (span _ (rev ?l)))) with (tail_len l).
  pose proof (split_complete text) as Sp. cbv zeta in Sp. fold csv in Sp.
  destruct (code_section (source_code_new text)) as [code|] eqn:Ecode.
  - destruct Sp as [cl [sep [cs [E1 [_ [_ [_ [Ecsv Elen]]]]]]]].
    assert (Hone : forallb one_line cs = true).
    { pose proof (lines_of_one_line text) as H. rewrite E1, forallb_app in H. apply andb_prop in H as [_ H]. cbn in H. apply andb_prop in H as [_ H]. exact H. }
    assert (Hne : cs <> []) by (intros ->; rewrite Ecsv in Hi; destruct i; discriminate).
    destruct (line_split cs (firstn i csv) (skipn i csv) Hone Hne) as [l [x [later [F1 [F2 [F3 F4]]]]]]; [rewrite firstn_skipn; congruence|].
    exists (x ++ l). split; [exact Hi|]. split.
    + rewrite E1, Elen, nth_error_app2 by lia. replace (S (length cl) + nl_count (firstn i csv) - length cl) with (S (nl_count (firstn i csv))) by lia. exact F1.
    + left. rewrite nth_error_app2 by lia. rewrite F2, Nat.sub_diag.
      assert (Hs : exists r, skipn i csv = ch :: r).
      { clear - Hi. revert Hi. generalize csv. induction i as [|i IH]; intros [|c y]; cbn; try discriminate; [intro H; injection H as ->; eauto|apply IH]. }
      destruct Hs as [r Hs]. rewrite Hs in F3. destruct l as [|c l]; [|cbn in *; congruence].
      cbn in F3. destruct F4 as [->|[z ->]]; [discriminate|]. congruence.
  - destruct Sp as [Ecsv [Elen _]]. rewrite Elen. cbn [plus]. rewrite Ecsv in *. destruct (lines_aux_index text [] i ch eq_refl Hi Hn) as [line [L1 L2]]. exists line. auto.
Qed.

(** ** Which cell *)
Lemma cells_err co : forall fs r e, row_parse_cells co fs r = Err e -> exists c f r', nth_error fs c = Some f /\ cell_parse co f r' = Err e.
Proof.
  induction fs as [|f fs IH]; intros r e; [discriminate|]. cbn [row_parse_cells].
  destruct (cell_parse co f r) as [[c r']|ce| |] eqn:Ec; cbn [bind]; try discriminate.
  - destruct (row_parse_cells co fs r') as [[cs r2]|e2| |] eqn:Er; cbn [bind]; try discriminate. intro H; injection H as ->.
    destruct (IH _ _ Er) as [k [f' [r3 [H1 H2]]]]. exists (S k), f', r3. auto.
  - intro H; injection H as ->. exists 0, f, r. auto.
Qed.
Lemma rows_err co : forall rs e, parse_rows co rs = Err e -> exists le y fs c f r', e = BadCell le /\ nth_error rs y = Some fs /\ nth_error fs c = Some f /\ cell_parse co f r' = Err le.
Proof.
  induction rs as [|fs rs IH]; intros e; [discriminate|]. cbn [parse_rows]. unfold row_parse.
  destruct (row_parse_cells co fs default_row) as [[cs r]|le| |] eqn:Er; cbn [bind]; try discriminate.
  - destruct (parse_rows co rs) as [rs'|e2| |] eqn:Ers; cbn [bind]; try discriminate. intro H; injection H as ->.
    destruct (IH _ eq_refl) as [le [y [fs' [c [f [r' [-> [H1 H2]]]]]]]]. exists le, (S y), fs', c, f, r'. auto.
  - intro H; injection H as <-. destruct (cells_err _ _ _ _ Er) as [c [f [r' [H1 H2]]]]. exists le, 0, fs, c, f, r'. auto.
Qed.
Lemma load_cell_err co text e : load_source co text = Err (BadCell e) ->
  exists rs fs f r, csvp_parse (csv_config text) (csv_section (source_code_new text)) = Ok rs
    /\ nth_error rs (addr_y (le_address e)) = Some fs /\ nth_error fs (addr_x (le_address e)) = Some f /\ cell_parse co f r = Err e.
Proof.
  unfold load_source. cbv zeta. destruct (match code_section _ with Some s => _ | None => _ end) as [[sc req]|le| |] eqn:Ecode; cbn [bind]; try discriminate.
  2:{ intro H. destruct (code_section _) as [s|]; [|discriminate]. destruct (code_section_parse _ _); congruence. }
  unfold sheet_parse. fold (csv_config text). destruct (csvp_parse (csv_config text) _) as [rs|ce| |] eqn:Ecsv; cbn [bind]; try discriminate.
  destruct (parse_rows co rs) as [rows|pe| |] eqn:Erows; cbn [bind]; try discriminate. intro H; injection H as ->.
  destruct (rows_err _ _ _ Erows) as [le [y [fs [c [f [r [E1 [E2 [E3 E4]]]]]]]]]. injection E1 as <-.
  assert (Ea : le_address e = f_address f).
  { revert E4. unfold cell_parse. destruct (parse_cell co f r) as [[c0 r0]| | |]; cbn [at_address bind]; try discriminate.
    - unfold parse_formula. destruct (starts_with _ _); [|discriminate]. destruct (ast_parse _ _ _); cbn [bind]; try discriminate. intro X; injection X as <-. reflexivity.
    - intro X; injection X as <-. reflexivity. }
  destruct (csvp_record _ _ _ _ _ Ecsv E2 c f E3) as [Ef _].
  exists rs, fs, f, r. rewrite Ea, Ef. cbn [addr_x addr_y]. auto.
Qed.

Lemma map_nth_error_chars (csv raw : str) (idxs : list nat) : length raw = length idxs ->
  (forall j i, nth_error idxs j = Some i -> exists ch, nth_error csv i = Some ch /\ nth_error raw j = Some ch) ->
  map (nth_error csv) idxs = map Some raw.
Proof.
  revert raw. induction idxs as [|i idxs IH]; intros [|c raw] L H; try discriminate; [reflexivity|].
  cbn [map]. destruct (H 0 i eq_refl) as [ch [H1 H2]]. cbn in H2. injection H2 as <-. f_equal; [exact H1|]. apply IH; [cbn in L; lia|].
  intros j k Hj. apply (H (S j) k Hj).
Qed.
Lemma csv_ascii text : ascii text -> ascii (csv_section (source_code_new text)).
Proof.
  intro A. pose proof (split_complete text) as Sp. cbv zeta in Sp.
  destruct (code_section _); [|destruct Sp as [-> _]; exact A]. destruct Sp as [cl [sep [cs [E1 [_ [_ [_ [-> _]]]]]]]].
  assert (L : forall s cur, ascii s -> ascii cur -> Forall ascii (lines_aux s cur)).
  { assert (Sc : forall c, ascii c -> ascii (strip_cr c)).
    { intros c H. unfold strip_cr. destruct (rev c) as [|x r] eqn:Er; [exact H|]. destruct (x =? c_cr)%N; [|exact H].
      assert (E2 : c = rev r ++ [x]) by (rewrite <- (rev_involutive c), Er; reflexivity). rewrite E2 in H. apply ascii_app in H. tauto. }
    induction s as [|c s IH]; intros cur As Ac; cbn [lines_aux]; [destruct cur; auto|].
    assert (As' : ascii s) by (unfold ascii in *; cbn in As; apply andb_prop in As; tauto).
    destruct (c =? c_nl)%N; [constructor; [apply Sc; exact Ac|apply IH; [exact As'|reflexivity]]|]. apply IH; [exact As'|]. apply ascii_app. split; [exact Ac|].
    unfold ascii in *. cbn in *. apply andb_prop in As. destruct As as [-> _]. reflexivity. }
  pose proof (L text [] A eq_refl) as F. change (lines_aux text []) with (lines_of text) in F. rewrite E1 in F. apply Forall_app in F as [_ F]. inversion F as [|? ? _ F']. clear - F'.
  induction F' as [|l ls H Hs IH]; [reflexivity|]. destruct ls as [|s ls]; [exact H|]. change (join [c_nl] (l :: s :: ls)) with (l ++ c_nl :: join [c_nl] (s :: ls)).
  apply ascii_app. split; [exact H|]. exact IH.
Qed.

Lemma cell_error_line co text e : load_source co text = Err (BadCell e) -> ascii text ->
  exists rs fs f raw idxs i ch,
    csvp_parse (csv_config text) (csv_section (source_code_new text)) = Ok rs
    /\ nth_error rs (addr_y (le_address e)) = Some fs /\ nth_error fs (addr_x (le_address e)) = Some f
    /\ cell_chars (csv_section (source_code_new text)) f raw idxs
    /\ In i idxs /\ nth_error (csv_section (source_code_new text)) i = Some ch
    /\ line_number (error_place e) = length_of_code_section (source_code_new text) + true_line (csv_section (source_code_new text)) i + line_break ch.
Proof.
  intros H A. destruct (load_cell_err _ _ _ H) as [rs [fs [f [r [E1 [E2 [E3 E4]]]]]]].
  destruct (csvp_positions _ _ _ E1 _ _ _ _ E2 E3) as [raw [idxs [P1 [P2 [P3 [P4 P5]]]]]].
  assert (Af : ascii (f_value f)).
  { pose proof (csvp_ascii _ _ _ _ _ E1 E2 (csv_ascii _ A)) as F. rewrite Forall_forall in F. apply F. eapply nth_error_In; eauto. }
  destruct (csvp_record _ _ _ _ _ E1 E2 _ _ E3) as [_ L].
  destruct (cell_error_place _ _ _ _ Af L E4) as [_ Pl].
  exists rs, fs, f, raw, idxs.
  assert (J : forall j p, position_for_offset f j = Some p -> exists i ch, nth_error idxs j = Some i /\ nth_error (csv_section (source_code_new text)) i = Some ch /\
     line_number p = length_of_code_section (source_code_new text) + true_line (csv_section (source_code_new text)) i + line_break ch).
  { intros j p Hp. destruct (nth_error idxs j) as [i|] eqn:Ei.
    2:{ apply nth_error_None in Ei. unfold position_for_offset in Hp. destruct (Nat.leb_spec (length (f_positions f)) j); [discriminate|lia]. }
    destruct (P5 _ _ Ei) as [ch [C1 [C2 C3]]]. exists i, ch. rewrite C3 in Hp. injection Hp as <-. split; [reflexivity|]. split; [exact C1|].
    unfold line_break. destruct (ch =? c_nl)%N; cbn [line_number csv_config lines_above]; lia. }
  assert (G : exists j p, position_for_offset f j = Some p /\ line_number p = line_number (error_place e)).
  { destruct Pl as [[j Hj]|Hj]; [eauto|]. unfold eof_position in Hj. destruct (rev (f_positions f)) as [|p ps] eqn:Er; [discriminate|]. injection Hj as Hj.
    assert (E5 : f_positions f = rev ps ++ [p]) by (rewrite <- (rev_involutive (f_positions f)), Er; reflexivity).
    exists (length ps), p. split; [|rewrite <- Hj; reflexivity]. unfold position_for_offset. rewrite E5, app_length, rev_length. cbn [length].
    destruct (Nat.leb_spec (length ps + 1) (length ps)); [lia|]. rewrite nth_error_app2, rev_length, Nat.sub_diag by (rewrite rev_length; lia). reflexivity. }
  destruct G as [j [p [Hp Hl]]]. destruct (J _ _ Hp) as [i [ch [I1 [I2 I3]]]]. exists i, ch.
  repeat split; auto.
  - apply map_nth_error_chars; [exact P2|]. intros k m Hk. destruct (P5 _ _ Hk) as [c [C1 [C2 _]]]. eauto.
  - eapply nth_error_In; eauto.
  - rewrite <- Hl. exact I3.
Qed.

(** ** Columns *)
Lemma one_line_closed_in s : one_line s = true -> forall r, strings_closed r s = true.
Proof.
  induction s as [|c s IH]; intros H r; [reflexivity|]. unfold one_line in *. cbn [forallb] in H. apply andb_prop in H as [Hc H].
  cbn [strings_closed]. destruct (c =? c_nl)%N; [discriminate|]. destruct r; auto.
Qed.
Lemma one_line_no_fn s : one_line s = true -> no_fn_at_line_end s.
Proof. intros H a w b E _. subst s. rewrite !one_line_app in H. destruct H as [_ [_ [_ H]]]. discriminate. Qed.
Lemma formula_caret co text e p rs fs f : load_source co text = Err (BadCell e) -> ascii text -> le_error e = BadFormula p ->
  csvp_parse (csv_config text) (csv_section (source_code_new text)) = Ok rs ->
  nth_error rs (addr_y (le_address e)) = Some fs -> nth_error fs (addr_x (le_address e)) = Some f ->
  starts_with [c_eq] (f_value f) = true ->
  exists raw idxs, cell_chars (csv_section (source_code_new text)) f raw idxs /\
  (forall w, raw = f_value f ++ w -> one_line raw = true ->
   exists pre b k i, f_value f = pre ++ b /\ shown_at p b
     /\ nth_error idxs k = Some i /\ k + (if pe_eof p then 1 else 0) = (if pe_eof p then length raw else length pre)
     /\ pe_position p = {| line_number := length_of_code_section (source_code_new text) + true_line (csv_section (source_code_new text)) i;
                           line_offset := true_column (csv_section (source_code_new text)) i + column_shift (csv_section (source_code_new text)) i + (if pe_eof p then 1 else 0) |}).
Proof.
  intros H A Hp E1' E2' E3' Hst. destruct (load_cell_err _ _ _ H) as [rs0 [fs0 [f0 [r [E1 [E2 [E3 E4]]]]]]].
  rewrite E1 in E1'; injection E1' as <-. rewrite E2 in E2'; injection E2' as <-. rewrite E3 in E3'; injection E3' as <-.
  destruct (csvp_positions _ _ _ E1 _ _ _ _ E2 E3) as [raw [idxs [P1 [P2 [P3 [P4 P5]]]]]].
  exists raw, idxs. split.
  { repeat split; auto. apply map_nth_error_chars; [exact P2|]. intros k m Hk. destruct (P5 _ _ Hk) as [c [C1 [C2 _]]]. eauto. }
  intros w Hw Ho.
  assert (Af : ascii (f_value f0)).
  { pose proof (csvp_ascii _ _ _ _ _ E1 E2 (csv_ascii _ A)) as F. rewrite Forall_forall in F. apply F. eapply nth_error_In; eauto. }
  assert (NL : no_list (f_value f0)).
  { destruct (proj1 (starts_eq _) Hst) as [s Es]. rewrite Es. split; intros [q Hq]; discriminate. }
  assert (Et : trim (f_value f0) = f_value f0) by (rewrite P1; apply trim_idem).
  unfold cell_parse in E4. rewrite (parse_cell_plain co f0 r NL) in E4. cbn [at_address bind] in E4.
  change (parsed_value (cell_after f0 [] (f_value f0) r)) with (trim (f_value f0)) in E4. rewrite Et in E4.
  unfold parse_formula in E4. rewrite Hst in E4.
  destruct (ast_parse (co_oracle co) false (f_value f0)) as [n|pe| |] eqn:Ep; cbn [bind] in E4; try discriminate. injection E4 as <-.
  cbn [le_error] in Hp. injection Hp as <-.
  assert (Ho' : one_line (f_value f0) = true) by (rewrite Hw in Ho; apply one_line_app in Ho; tauto).
  destruct (formula_shown _ _ _ _ (one_line_closed_in _ Ho' _) (one_line_no_fn _ Ho') Ep) as [pre [b [Eb [[_ Hoff] Hsh]]]].
  assert (Hoff' : line_offset (pe_position pe) = length pre).
  { rewrite (Hoff Af). rewrite Eb in Ho'. apply one_line_app in Ho' as [Ho1 _]. rewrite <- (app_nil_l pre) at 1. rewrite tail_len_one_line by exact Ho1. reflexivity. }
  assert (Pos : forall k i, nth_error idxs k = Some i -> position_for_offset f0 k = Some
     {| line_number := length_of_code_section (source_code_new text) + true_line (csv_section (source_code_new text)) i;
        line_offset := true_column (csv_section (source_code_new text)) i + column_shift (csv_section (source_code_new text)) i |}).
  { intros k i Hk. destruct (P5 _ _ Hk) as [ch [C1 [C2 C3]]]. rewrite C3. f_equal.
    assert (Hch : (ch =? c_nl)%N = false).
    { apply nth_error_In in C2. unfold one_line in Ho. rewrite forallb_forall in Ho. specialize (Ho _ C2). destruct (ch =? c_nl)%N; [discriminate|reflexivity]. }
    rewrite Hch. unfold column_shift. cbn [csv_config lines_above]. f_equal. lia. }
  assert (Sh : shown_at (parse_error_in_field f0 pe) b).
  { unfold shown_at. cbn [parse_error_in_field pe_saw pe_kind pe_eof].
    destruct Hsh as [[_ [tok [q [T1 [T2 [T3 T4]]]]]]|[[_ [K1 [[c [q [K2 _]]] [q' K3]]]]|[K1 [K2 K3]]]].
    - left. eauto 6.
    - right; left. split; [exact K1|]. split; [congruence|]. eauto.
    - right; right. auto. }
  cbn [parse_error_in_field pe_eof pe_position]. unfold position_in_field. destruct (pe_eof pe) eqn:Hef.
  - assert (Hl : 0 < length raw) by (rewrite Hw, app_length; destruct (f_value f0); [discriminate|cbn; lia]).
    destruct (nth_error idxs (length raw - 1)) as [i|] eqn:Ei; [|apply nth_error_None in Ei; lia].
    exists pre, b, (length raw - 1), i. repeat split; auto; [lia|].
    pose proof (Pos _ _ Ei) as X. unfold position_for_offset in X. destruct (_ <=? _); [discriminate|].
    unfold eof_position. destruct (rev (f_positions f0)) as [|p0 ps] eqn:Er.
    { apply (f_equal (@length _)) in Er. rewrite rev_length in Er. cbn in Er. lia. }
    assert (E5 : f_positions f0 = rev ps ++ [p0]) by (rewrite <- (rev_involutive (f_positions f0)), Er; reflexivity).
    rewrite E5 in X. replace (length raw - 1) with (length (rev ps)) in X by (rewrite P3, E5, app_length; cbn; lia).
    rewrite nth_error_app2, Nat.sub_diag in X by lia. cbn in X. injection X as ->. reflexivity.
  - assert (Hl : length pre < length raw).
    { rewrite Hw, app_length, Eb, app_length. assert (Hb : b <> []); [|destruct b as [|c0 b0]; [congruence|cbn [length]; lia]].
      destruct Hsh as [[_ [tok [q [T1 [_ [_ ->]]]]]]|[[_ [_ [[c [q [-> _]]] _]]]|[_ [K2 _]]]]; [destruct tok; [congruence|discriminate]|discriminate|congruence]. }
    destruct (nth_error idxs (length pre)) as [i|] eqn:Ei; [|apply nth_error_None in Ei; lia].
    exists pre, b, (length pre), i. repeat split; auto. rewrite Hoff', (Pos _ _ Ei). f_equal. lia.
Qed.
