(** * CellProofs10: single options: words from a table, quoted texts, colours. *)
From Verif Require Import Base BaseProofs Csvp Ast AstLexer AstParser AstLexerProofs Options CellLexer CellParser CellSpec CellProofs CellProofs2 CellProofs3 CellProofs4 CellProofs5 CellProofs6 CellProofs7 CellProofs8 CellLocal CellProofs9.
From Coq Require Import ZifyBool ZifyN.

Lemma to_lowercase_ascii co s : ascii s -> to_lowercase co s = lower s.
Proof.
  induction s as [|c s IH]; [reflexivity|]. intro A. apply ascii_cons in A as [Ac A]. unfold to_lowercase, lower in *. cbn [flat_map map].
  rewrite Ac, (IH A). reflexivity.
Qed.
Lemma spelled_map {A B} (g : A -> B) (t : table A) s v : spelled (map (fun '(k, v) => (k, g v)) t) s v <-> exists x, v = g x /\ spelled t s x.
Proof.
  unfold spelled. rewrite !in_map_iff. split.
  - intros [[k y] [E H]]. apply in_map_iff in H as [[k' x] [E' H]]. injection E' as <- <-. injection E as <- <-.
    exists x. split; [reflexivity|]. apply in_map_iff. exists (k', x). auto.
  - intros [x [-> H]]. apply in_map_iff in H as [[k x'] [E H]]. injection E as <- <-. exists (k, g x'). split; [reflexivity|].
    apply in_map_iff. exists (k, x'). auto.
Qed.
Lemma word_ascii w : word w -> ascii w.
Proof.
  intros [_ H]. unfold ascii. rewrite forallb_forall in *. intros c Hc. apply H in Hc. unfold word_char, is_ascii_alnum, is_ascii_alpha, is_ascii_upper, is_ascii_lower, is_ascii_digit, c_underscore, is_ascii in *. lia.
Qed.
(** one option list with one option *)
Lemma one_list co x o : opt_text co true false x o -> lists_text co true (lit "[[" ++ x ++ lit "]]") [(false, [o])].
Proof.
  intro H. change (lit "[[" ++ x ++ lit "]]") with (@nil N ++ lit "[[" ++ (x ++ lit "]]")).
  replace (x ++ lit "]]") with ((x ++ lit "]]") ++ []) by apply app_nil_r.
  apply ls_cell; [reflexivity| |constructor]. exact (os_last co true false [] x o [] eq_refl H eq_refl).
Qed.
Lemma one_option co f r x o v : opt_text co true false x o -> f_value f = lit "[[" ++ x ++ lit "]]" ++ v ->
  ascii x -> located f -> no_list v -> parse_cell co f r = Ok (cell_after f [(false, [o])] v r, r).
Proof.
  intros H E A L N.
  assert (E' : f_value f = (lit "[[" ++ x ++ lit "]]") ++ v) by (rewrite E, <- !app_assoc; reflexivity).
  assert (A' : ascii (lit "[[" ++ x ++ lit "]]")) by (repeat (apply ascii_app; split); auto; reflexivity).
  destruct (cell_complete co f r _ _ v A' L E' (one_list co x o H) N) as [C _]. rewrite C.
  - rewrite row_after_no_row; reflexivity.
  - split; [right; reflexivity|cbn; lia].
Qed.
Definition choice_fun (co : cell_oracle) (k : okind) : option (str -> option opt) :=
  match k with
  | KBorder => Some (fun s => option_map OBorder (border_side_of s))
  | KBorderStyle => Some (fun s => option_map OBorderStyle (border_style_of s))
  | KHalign => Some (fun s => option_map OHalign (horizontal_align_of s))
  | KNumberFormat => Some (fun s => option_map ONumberFormat (number_format_of s))
  | KText => Some (fun s => option_map OText (text_format_of s))
  | KValign => Some (fun s => option_map OValign (vertical_align_of s))
  | KWrap => Some (fun s => option_map OWrap (text_wrap_of s))
  | _ => None
  end.
Lemma token_error_shape {A} f t m e : @token_error A f t m = Err e -> ce_input e = lit "`" ++ ct_text t ++ lit "`" /\ ce_message e = m.
Proof. unfold token_error, report. destruct (position_for_offset f (ct_offset t)); [|discriminate]. intro H. injection H as <-. split; reflexivity. Qed.
(** a run of characters, whatever follows it *)
Lemma while_reads f k q X r o : X <> [] -> ascii X -> forallb q X = true -> (forall c, q c = true -> is_ws c = false) ->
  match r with c :: _ => q c = false | [] => True end ->
  take_while f {| cl_input := X ++ r; cl_offset := o |} k q
    = Ok ({| ct_kind := k; ct_text := X; ct_offset := o + length X - 1 |}, {| cl_input := r; cl_offset := o + length X |}).
Proof.
  intros Hn Ha Hq Hw Hr. unfold take_while. destruct X as [|c X]; [congruence|].
  assert (Hc : is_ws c = false) by (apply Hw; cbn [forallb] in Hq; apply andb_prop in Hq as [Hq _]; exact Hq).
  assert (T : take_whitespace {| cl_input := (c :: X) ++ r; cl_offset := o |} = {| cl_input := (c :: X) ++ r; cl_offset := o |}).
  { unfold take_whitespace. cbn [cl_input cl_offset app trim_start]. rewrite Hc. f_equal. lia. }
  rewrite T. cbn [cl_input].
  assert (Sp : span q ((c :: X) ++ r) = (c :: X, r)).
  { clear -Hq Hr. induction (c :: X) as [|d Y IH]; cbn [app span forallb] in *.
    - destruct r as [|d r]; [reflexivity|]. cbn [span]. rewrite Hr. reflexivity.
    - apply andb_prop in Hq as [Hd Hq]. rewrite Hd, (IH Hq). reflexivity. }
  rewrite Sp. rewrite move_at. cbn [bind]. rewrite (utf8_len_ascii _ Ha). reflexivity.
Qed.
(** the end of a word: nothing, or an ASCII character that is no word character *)
Definition stops (r : str) : Prop := match r with c :: _ => is_ascii c = true /\ word_char c = false | [] => True end.
Lemma right_side_reads co f X r o : word X -> stops r ->
  take_option_right_side co f {| cl_input := [c_eq] ++ X ++ r; cl_offset := o |}
    = Ok ({| ct_kind := KIdentifier; ct_text := X; ct_offset := o + length X |}, {| cl_input := r; cl_offset := o + 1 + length X |}).
Proof.
  intros HX Hr. unfold take_option_right_side, take.
  assert (T : take_whitespace {| cl_input := [c_eq] ++ X ++ r; cl_offset := o |} = {| cl_input := [c_eq] ++ X ++ r; cl_offset := o |}).
  { unfold take_whitespace. cbn [cl_input cl_offset app trim_start]. replace (is_ws c_eq) with false by reflexivity. f_equal. lia. }
  rewrite T. cbn [cl_input cl_offset]. rewrite CellProofs.strip_prefix_app. cbn [bind]. unfold take_identifier. pose proof (word_ascii X HX) as Ha. destruct HX as [Hn HX].
  rewrite while_reads; [|exact Hn|exact Ha| | |].
  - f_equal. f_equal. f_equal. change (utf8_len [c_eq]) with 1. destruct X; [congruence|cbn; lia].
  - unfold ascii in Ha. rewrite forallb_forall in *. intros c Hc. specialize (HX c Hc). specialize (Ha c Hc). unfold word_char in HX. rewrite ascii_not_ws_alnum by exact Ha. exact HX.
  - intros c H. destruct (is_alnum (co_unicode co) c) eqn:A; [apply (CellLocal.alnum_not_ws _ _ A)|]. unfold is_ws, c_underscore in *. lia.
  - destruct r as [|c r]; [exact I|]. destruct Hr as [Hc Hr]. rewrite ascii_not_ws_alnum by exact Hc. exact Hr.
Qed.
(** the message of an option whose value is one of a few words *)
Definition choice_error (k : okind) : cell_message :=
  match k with
  | KBorder => border_side_error | KBorderStyle => border_style_error | KHalign => horizontal_align_error
  | KNumberFormat => number_format_error | KText => text_format_error | KValign => vertical_align_error
  | _ => text_wrap_error
  end.
(** an option list whose first option is refused: its value is a word that the option's reader does not know *)
Lemma option_refused co n k f r X v : okind_of n = Some k -> option_name n -> word X -> stops v ->
  f_value f = lit "[[" ++ n ++ [c_eq] ++ X ++ v -> located f -> forall m,
  (forall name l t l', take_option_right_side co f l = Ok (t, l') -> ct_text t = X -> option_value co false k name f l = token_error f t m) ->
  exists e, parse_cell co f r = Err e /\ ce_input e = lit "`" ++ X ++ lit "`" /\ ce_message e = m.
Proof.
  intros Hk [Hn Hna] HX Hv E L m HP.
  unfold parse_cell. cbn [parse_option_lists]. unfold maybe_take_start_options.
  assert (T0 : take_whitespace {| cl_input := f_value f; cl_offset := 0 |} = {| cl_input := f_value f; cl_offset := 0 |}).
  { unfold take_whitespace. cbn [cl_input cl_offset]. rewrite E. cbn [lit app trim_start]. f_equal. cbn. lia. }
  rewrite T0. cbn [cl_input cl_offset].
  set (q := n ++ [c_eq] ++ X ++ v) in *.
  assert (P0 : strip_prefix (lit "[[") (f_value f) = Some q) by (rewrite E; apply AstLexerProofs.strip_prefix_app).
  rewrite P0. cbn [andb negb]. cbn [parse_cell_options]. unfold parse_option, take_option_name, q.
  assert (An : ascii n).
  { unfold ascii. rewrite forallb_forall in *. intros c Hc. specialize (Hna c Hc). unfold is_ascii_alnum, is_ascii_alpha, is_ascii_upper, is_ascii_lower, is_ascii_digit, is_ascii in *. lia. }
  rewrite while_reads; [|exact Hn|exact An|rewrite forallb_ascii_alnum; [exact Hna|exact An]|intros c H; apply (CellLocal.alnum_not_ws _ _ H)|reflexivity].
  cbn [bind ct_text]. rewrite Hk. cbn [or_error bind].
  rewrite (HP _ _ _ _ (right_side_reads co f X v _ HX Hv) eq_refl).
  assert (O : 0 + 2 + length n + length X < length (f_positions f)).
  { unfold located in L. rewrite E in L. unfold q in L. rewrite !app_length in L. cbn in L. lia. }
  destruct (report_at (A := opt * clexer) f (lit "`" ++ X ++ lit "`", m) _ O) as [e He]. unfold token_error. cbn [ct_text ct_offset] in *. rewrite He.
  cbn. exists e. split; [reflexivity|]. unfold report in He. destruct (position_for_offset f _); [|discriminate He]. injection He as <-. split; reflexivity.
Qed.
Lemma word_option_refuses {A} co (of : str -> option A) m mk f l t l' : take_option_right_side co f l = Ok (t, l') ->
  of (to_lowercase co (ct_text t)) = None -> word_option co of m mk f l = token_error f t m.
Proof. intros R N. unfold word_option. rewrite R. cbn [bind]. rewrite N. cbn [or_error]. unfold token_error, report. destruct (position_for_offset f (ct_offset t)); reflexivity. Qed.
Lemma choice_reject co n k g f r X v : okind_of n = Some k -> choice_fun co k = Some g -> option_name n -> word X ->
  g (to_lowercase co X) = None ->
  f_value f = lit "[[" ++ n ++ [c_eq] ++ X ++ lit "]]" ++ v -> located f ->
  exists e, parse_cell co f r = Err e /\ ce_input e = lit "`" ++ X ++ lit "`" /\ ce_message e = choice_error k.
Proof.
  intros Hk Hg Hn HX HN E L. eapply option_refused; eauto; [split; reflexivity|]. intros name l t l' R Et. rewrite <- Et in HN.
  destruct k; try discriminate; cbn [option_value choice_error]; cbn in Hg; injection Hg as <-;
    (eapply word_option_refuses; [exact R|]);
    (match type of HN with option_map _ ?x = None => destruct x eqn:HH; [discriminate|exact HH] end).
Qed.
Lemma validate_reject co n f r X v : one_of n ["dv"; "validate"]%string -> word X -> stops v ->
  vkind_of (to_lowercase co X) = None ->
  f_value f = lit "[[" ++ n ++ [c_eq] ++ X ++ v -> located f ->
  exists e, parse_cell co f r = Err e /\ ce_input e = lit "`" ++ X ++ lit "`" /\ ce_message e = MInvalidValue (lit "validate") possible_validations.
Proof.
  intros Hn HX Hv HN E L.
  assert (Hk : okind_of n = Some KValidate /\ option_name n) by (split; [of_names Hn|name_ok Hn]). destruct Hk as [Hk Ho].
  eapply option_refused; eauto. intros name l t l' R Et. cbn [option_value]. unfold validate_option. rewrite R. cbn [bind]. rewrite Et, HN. cbn [or_error].
  unfold token_error, report. destruct (position_for_offset f (ct_offset t)); reflexivity.
Qed.
Ltac choose H := repeat (destruct H as [H|H]; [apply pair_equal_spec in H as [<- <-]|]); [..|contradiction].
Lemma choices_kind ns t n : In (ns, t) choices -> one_of n ns -> exists k g, okind_of n = Some k /\ option_name n /\
  forall co, choice_fun co k = Some g /\ forall s o, g s = Some o <-> spelled t s o.
Proof.
  intros H Hn. unfold choices in H. cbn [In] in H. choose H;
  (match type of Hn with one_of _ _ => idtac end);
  (eexists; eexists; split; [of_names Hn|]; split; [name_ok Hn|]; intro co; split; [reflexivity|]; intros s o; rewrite spelled_map).
  all: split; [intro G; match type of G with option_map _ ?x = _ => destruct x as [y|] eqn:Y; [|discriminate] end; injection G as <-; exists y; split; [reflexivity|]
              |intros [y [-> G]]].
  all: first [apply border_side_table in Y; exact Y | apply border_style_table in Y; exact Y | apply halign_table in Y; exact Y
    | apply number_format_table in Y; exact Y | apply text_format_table in Y; exact Y | apply valign_table in Y; exact Y | apply wrap_table in Y; exact Y
    | apply border_side_table in G; rewrite G; reflexivity | apply border_style_table in G; rewrite G; reflexivity | apply halign_table in G; rewrite G; reflexivity
    | apply number_format_table in G; rewrite G; reflexivity | apply text_format_table in G; rewrite G; reflexivity
    | apply valign_table in G; rewrite G; reflexivity | apply wrap_table in G; rewrite G; reflexivity].
Qed.
Lemma choice_text co ns t n X o : In (ns, t) choices -> one_of n ns -> word X -> spelled t (to_lowercase co X) o ->
  opt_text co true false (n ++ [c_eq] ++ X) o.
Proof.
  intros H Hn HX Ho. unfold choices in H. cbn [In] in H.
  assert (As : assigns ([c_eq] ++ X) X) by (exists [], []; repeat split; reflexivity).
  choose H; apply spelled_map in Ho as [y [-> Ho]];
    [eapply ot_border|eapply ot_border_style|eapply ot_halign|eapply ot_number_format|eapply ot_text|eapply ot_valign|eapply ot_wrap]; eauto.
Qed.

Lemma escape_body s : quoted_body (escape s) s.
Proof.
  induction s as [|c s IH]; [constructor|]. unfold escape in *. cbn [flat_map].
  destruct (N.eqb_spec c c_squote) as [->|H1]; [constructor; exact IH|].
  destruct (N.eqb_spec c c_backslash) as [->|H2]; [constructor; exact IH|]. cbn. constructor; assumption.
Qed.

Lemma hex_char_ok n : (n < 16)%N -> is_hex (hex_char n) n.
Proof. intro H. unfold is_hex, hex_char. destruct (N.ltb_spec n 10); lia. Qed.
Lemma show_rgb_text c : (red c < 256)%N -> (green c < 256)%N -> (blue c < 256)%N -> color_text (show_rgb c) c.
Proof.
  intros R G B. right. exists (hex2 (red c) ++ hex2 (green c) ++ hex2 (blue c)). split; [reflexivity|].
  unfold hex2. cbn [app].
  assert (D : forall x, (x < 256)%N -> is_hex (hex_char (x / 16)) (x / 16) /\ is_hex (hex_char (x mod 16)) (x mod 16) /\ x = (16 * (x / 16) + x mod 16)%N).
  { intros x Hx. split; [apply hex_char_ok, N.div_lt_upper_bound; lia|]. split; [apply hex_char_ok, N.mod_lt; lia|]. apply N.div_mod. lia. }
  destruct (D _ R) as [R1 [R2 R3]], (D _ G) as [G1 [G2 G3]], (D _ B) as [B1 [B2 B3]].
  pose proof (hex_long _ _ _ _ _ _ _ _ _ _ _ _ R1 R2 G1 G2 B1 B2) as H.
  rewrite <- R3, <- G3, <- B3 in H. destruct c; exact H.
Qed.
