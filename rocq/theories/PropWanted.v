(** * PropWanted: an error about the value of an option says what kind of value was expected there (C73, C78). *)
From Verif Require Import Base BaseProofs Csvp CsvpSpec Ast AstProofs AstLexer AstParser AstLexerProofs Options CellLexer CellParser CellSpec CellProofs CellProofs7 CellProofs2 CellLocal CellProofs10 Report PropCell PropOffers.
From Coq Require Import ZifyBool ZifyN.

(** the text does not begin with white space or with such a character *)
Definition begins_otherwise (q : char -> bool) (s : str) : Prop := match s with c :: _ => is_ws c = false /\ q c = false | [] => True end.

Lemma ascii_name n : forallb is_ascii_alnum n = true -> ascii n.
Proof. intro H. unfold ascii. rewrite forallb_forall in *. intros c Hc. specialize (H c Hc). unfold is_ascii_alnum, is_ascii_alpha, is_ascii_upper, is_ascii_lower, is_ascii_digit, is_ascii in *. lia. Qed.
(** the first option of a cell's list fails *)
Lemma first_option_fails co n k f r W e : okind_of n = Some k -> option_name n -> f_value f = lit "[[" ++ n ++ [c_eq] ++ W ->
  (forall name, option_value co false k name f {| cl_input := [c_eq] ++ W; cl_offset := 2 + length n |} = Err e) -> parse_cell co f r = Err e.
Proof.
  intros Hk [Hn Hna] E HP.
  unfold parse_cell. cbn [parse_option_lists]. unfold maybe_take_start_options.
  assert (T0 : take_whitespace {| cl_input := f_value f; cl_offset := 0 |} = {| cl_input := f_value f; cl_offset := 0 |}).
  { unfold take_whitespace. cbn [cl_input cl_offset]. rewrite E. cbn [lit app trim_start]. f_equal. cbn. lia. }
  rewrite T0. cbn [cl_input cl_offset]. set (q := n ++ [c_eq] ++ W) in *.
  assert (P0 : strip_prefix (lit "[[") (f_value f) = Some q) by (rewrite E; apply AstLexerProofs.strip_prefix_app).
  rewrite P0. cbn [andb negb]. cbn [parse_cell_options]. unfold parse_option, take_option_name, q. pose proof (ascii_name n Hna) as An.
  rewrite while_reads; [|exact Hn|exact An|rewrite forallb_ascii_alnum; [exact Hna|exact An]|intros c H; apply (CellLocal.alnum_not_ws _ _ H)|reflexivity].
  cbn [bind ct_text]. rewrite Hk. cbn [or_error bind]. change (0 + utf8_len (lit "[[")) with 2. rewrite HP. reflexivity.
Qed.
Lemma take_at f sub s o : sub <> [] -> ascii sub -> match sub with c :: _ => is_ws c = false | [] => True end ->
  take f {| cl_input := sub ++ s; cl_offset := o |} sub = Ok {| cl_input := s; cl_offset := o + length sub |}.
Proof.
  intros Hn Ha Hw. unfold take. destruct sub as [|c sub]; [congruence|].
  assert (T : take_whitespace {| cl_input := (c :: sub) ++ s; cl_offset := o |} = {| cl_input := (c :: sub) ++ s; cl_offset := o |}).
  { unfold take_whitespace. cbn [cl_input cl_offset app trim_start]. rewrite Hw. f_equal. lia. }
  rewrite T. cbn [cl_input cl_offset]. rewrite AstLexerProofs.strip_prefix_app, (utf8_len_ascii _ Ha). reflexivity.
Qed.
Lemma no_ws q W o : begins_otherwise q W -> take_whitespace {| cl_input := W; cl_offset := o |} = {| cl_input := W; cl_offset := o |}.
Proof. intro H. unfold take_whitespace. cbn [cl_input cl_offset]. destruct W as [|c W]; cbn [trim_start]; [f_equal; lia|]. destruct H as [-> _]. f_equal. lia. Qed.
Lemma while_fails f k q W o : begins_otherwise q W -> take_while f {| cl_input := W; cl_offset := o |} k q = unknown_string f {| cl_input := W; cl_offset := o |} (MExpectedA k).
Proof. intro H. unfold take_while. rewrite (no_ws q W o H). cbn [cl_input]. destruct W as [|c W]; [reflexivity|]. destruct H as [_ H]. cbn [span]. rewrite H. reflexivity. Qed.
Lemma color_fails co f W o : W <> [] -> begins_otherwise (fun c => is_alnum (co_unicode co) c || (c =? c_hash)%N) W ->
  take_color co f {| cl_input := W; cl_offset := o |} = unknown_string f {| cl_input := W; cl_offset := o |} MColorCharacter.
Proof.
  intros Hn H. unfold take_color. rewrite (no_ws _ W o H). cbn [cl_input]. destruct W as [|c W]; [congruence|]. destruct H as [_ H]. apply orb_false_elim in H as [H1 H2]. cbn [color_loop]. rewrite H1, H2. reflexivity.
Qed.
Lemma date_fails co f W o : begins_otherwise (is_digit (co_unicode co)) W ->
  take_date co f {| cl_input := W; cl_offset := o |} = unknown_string f {| cl_input := W; cl_offset := o |} MExpectedDate.
Proof.
  intro H. unfold take_date. rewrite (no_ws _ W o H). unfold maybe_take_regex. cbn [cl_input].
  assert (Sp : span is_blank W = ([], W)) by (destruct W as [|c W]; [reflexivity|]; destruct H as [H _]; cbn [span]; unfold is_blank; rewrite H; reflexivity).
  assert (D : m_date (co_unicode co) W = None).
  { destruct W as [|c W]; [reflexivity|]. destruct H as [_ H]. unfold m_date, m_iso_date, m_us_date, m_seq, m_range. cbn [m_digits m_digits_up_to]. rewrite H. reflexivity. }
  rewrite Sp, D. reflexivity.
Qed.
(** where an error is reported *)
Lemma unknown_at {A} f l m : 0 < cl_offset l -> cl_offset l <= length (f_positions f) ->
  exists e, @unknown_string A f l m = Err e /\ ce_input e = lit "unrecognized token `" ++ cl_input l ++ lit "`" /\ ce_message e = m.
Proof.
  intros H1 H2. unfold unknown_string, report, current_offset, position_for_offset.
  destruct (Nat.leb_spec (length (f_positions f)) (cl_offset l - 1)) as [Q|Q]; [lia|].
  destruct (nth_error (f_positions f) (cl_offset l - 1)) as [p|] eqn:E; [|apply nth_error_None in E; lia]. eexists. split; [reflexivity|]. split; reflexivity.
Qed.
Lemma bad_at {A B} f l m (k : A -> outcome cell_error B) : 0 < cl_offset l -> cl_offset l <= length (f_positions f) ->
  exists e, (do x <- unknown_string f l m; k x) = Err e /\ ce_input e = lit "unrecognized token `" ++ cl_input l ++ lit "`" /\ ce_message e = m.
Proof. intros H1 H2. destruct (unknown_at (A := A) f l m H1 H2) as [e [-> H]]. exists e. split; [reflexivity|exact H]. Qed.

Definition wants_a_date : list string := names_in date_validations ++ names_in date_pair_validations.
Definition wants_a_number : list string := names_in number_validations ++ names_in number_pair_validations.
Lemma date_kinds s : one_of s wants_a_date -> exists k, vkind_of s = Some k /\ In k [VKDateAfter; VKDateBefore; VKDateEqualTo; VKDateOnOrAfter; VKDateOnOrBefore; VKDateBetween; VKDateNotBetween].
Proof.
  unfold one_of. intro H. assert (C : forallb (fun s => match vkind_of s with Some (VKDateAfter | VKDateBefore | VKDateEqualTo | VKDateOnOrAfter | VKDateOnOrBefore | VKDateBetween | VKDateNotBetween) => true | _ => false end) (map lit wants_a_date) = true) by (vm_compute; reflexivity).
  rewrite forallb_forall in C. specialize (C _ H). destruct (vkind_of s) as [[]|]; try discriminate C; eexists; (split; [reflexivity|]); cbn [In]; tauto.
Qed.
Lemma number_kinds s : one_of s wants_a_number -> exists k, vkind_of s = Some k /\ In k [VKNumEq; VKNumGt; VKNumGte; VKNumLt; VKNumLte; VKNumNeq; VKNumBetween; VKNumNotBetween].
Proof.
  unfold one_of. intro H. assert (C : forallb (fun s => match vkind_of s with Some (VKNumEq | VKNumGt | VKNumGte | VKNumLt | VKNumLte | VKNumNeq | VKNumBetween | VKNumNotBetween) => true | _ => false end) (map lit wants_a_number) = true) by (vm_compute; reflexivity).
  rewrite forallb_forall in C. specialize (C _ H). destruct (vkind_of s) as [[]|]; try discriminate C; eexists; (split; [reflexivity|]); cbn [In]; tauto.
Qed.
(** C73, C78: a rule that takes dates or numbers and is given something else is rejected; the error says that a date or a number was expected and
    shows the text that stands in its place. *)
Theorem C78_wrong_argument : forall co f r n X W, located f -> one_of n ["dv"; "validate"]%string -> word X ->
  f_value f = lit "[[" ++ n ++ [c_eq] ++ X ++ lit "(" ++ W ->
  (one_of (lower X) wants_a_date -> begins_otherwise (is_digit (co_unicode co)) W ->
     exists e, parse_cell co f r = Err e /\ ce_input e = lit "unrecognized token `" ++ W ++ lit "`" /\ ce_message e = MExpectedDate)
  /\ (one_of (lower X) wants_a_number -> begins_otherwise (fun c => is_ascii_digit c || (c =? c_minus)%N || (c =? c_dot)%N) W ->
     exists e, parse_cell co f r = Err e /\ ce_input e = lit "unrecognized token `" ++ W ++ lit "`" /\ ce_message e = MExpectedA KNumber).
Proof.
  intros co f r n X W L Hn HX E.
  assert (Hk : okind_of n = Some KValidate /\ option_name n) by (split; [of_names Hn|name_ok Hn]). destruct Hk as [Hk Ho].
  assert (O : 2 + length n + 1 + length X + 1 <= length (f_positions f)).
  { unfold located in L. rewrite E in L. rewrite !app_length in L. cbn [length lit app] in L. change (length (lit "[[")) with 2 in L. change (length (lit "(")) with 1 in L. lia. }
  pose proof (right_side_reads co f X (lit "(" ++ W) (2 + length n) HX (conj eq_refl eq_refl)) as R.
  assert (Tk : take f {| cl_input := lit "(" ++ W; cl_offset := 2 + length n + 1 + length X |} (lit "(") = Ok {| cl_input := W; cl_offset := 2 + length n + 1 + length X + 1 |}) by (apply (take_at f (lit "(")); [discriminate|reflexivity|reflexivity]).
  set (o' := 2 + length n + 1 + length X + 1) in *. assert (O1 : 0 < o') by (unfold o'; lia).
  assert (Lo : to_lowercase co X = lower X) by (apply to_lowercase_ascii; apply CellProofs10.word_ascii; exact HX).
  assert (Fin : forall k m, vkind_of (lower X) = Some k ->
     (exists e, validation_args co k f {| cl_input := lit "(" ++ W; cl_offset := 2 + length n + 1 + length X |} = Err e /\ ce_input e = lit "unrecognized token `" ++ W ++ lit "`" /\ ce_message e = m) ->
     exists e, parse_cell co f r = Err e /\ ce_input e = lit "unrecognized token `" ++ W ++ lit "`" /\ ce_message e = m).
  { intros k m Hv [e [He Q]]. exists e. split; [|exact Q]. apply (first_option_fails co n KValidate f r (X ++ lit "(" ++ W) e Hk Ho E). intro name. cbn [option_value]. unfold validate_option.
    rewrite R. cbn [bind ct_text]. rewrite Lo, Hv. cbn [or_error bind]. unfold pmap. rewrite He. reflexivity. }
  split; intros Hv Hw.
  - destruct (date_kinds _ Hv) as [k [Hvk Hin]]. apply (Fin k _ Hvk). pose proof (date_fails co f W o' Hw) as D.
    destruct (unknown_at (A := ctoken * clexer) f {| cl_input := W; cl_offset := o' |} MExpectedDate O1 O) as [e [He Q]]. exists e. split; [|exact Q].
    cbn [In] in Hin. repeat (destruct Hin as [<-|Hin]; [cbn [validation_args]; unfold pmap, one_date, two_dates, one_in_parens, two_in_parens; rewrite Tk; cbn [bind]; rewrite D, He; reflexivity|]). contradiction.
  - destruct (number_kinds _ Hv) as [k [Hvk Hin]]. apply (Fin k _ Hvk). pose proof (while_fails f KNumber _ W o' Hw) as D.
    destruct (unknown_at (A := ctoken * clexer) f {| cl_input := W; cl_offset := o' |} (MExpectedA KNumber) O1 O) as [e [He Q]]. exists e. split; [|exact Q].
    cbn [In] in Hin. repeat (destruct Hin as [<-|Hin]; [cbn [validation_args]; unfold pmap, one_number, two_numbers, one_in_parens, two_in_parens, take_number; rewrite Tk; cbn [bind]; rewrite D, He; reflexivity|]). contradiction.
Qed.
Print Assumptions C78_wrong_argument.
(** The same for colours and font sizes. *)
Theorem C78_wrong_value : forall co f r n W, located f -> f_value f = lit "[[" ++ n ++ [c_eq] ++ W ->
  (one_of n ["bc"; "bordercolor"; "c"; "color"; "fc"; "fontcolor"]%string -> W <> [] -> begins_otherwise (fun c => is_alnum (co_unicode co) c || (c =? c_hash)%N) W ->
     exists e, parse_cell co f r = Err e /\ ce_input e = lit "unrecognized token `" ++ W ++ lit "`" /\ ce_message e = MColorCharacter)
  /\ (one_of n ["fs"; "fontsize"]%string -> begins_otherwise is_ascii_digit W ->
     exists e, parse_cell co f r = Err e /\ ce_input e = lit "unrecognized token `" ++ W ++ lit "`" /\ ce_message e = MExpectedA KPositiveNumber).
Proof.
  intros co f r n W L E.
  assert (O : 2 + length n + 1 <= length (f_positions f)).
  { unfold located in L. rewrite E in L. rewrite !app_length in L. change (length (lit "[[")) with 2 in L. cbn [length] in L. lia. }
  assert (Tk : take f {| cl_input := [c_eq] ++ W; cl_offset := 2 + length n |} [c_eq] = Ok {| cl_input := W; cl_offset := 2 + length n + 1 |}) by (apply (take_at f [c_eq]); [discriminate|reflexivity|reflexivity]).
  set (o' := 2 + length n + 1) in *. assert (O1 : 0 < o') by (unfold o'; lia). split.
  - intros Hn Hne Hw. pose proof (color_fails co f W o' Hne Hw) as D.
    destruct (unknown_at (A := ctoken * clexer) f {| cl_input := W; cl_offset := o' |} MColorCharacter O1 O) as [e [He Q]]. exists e. split; [|exact Q].
    assert (Ho : option_name n) by name_ok Hn.
    assert (Hk : exists k mk, okind_of n = Some k /\ forall name, option_value co false k name = color_option co mk).
    { unfold one_of in Hn; cbn [map In] in Hn; repeat (destruct Hn as [Hn|Hn]; [rewrite <- Hn; do 2 eexists; split; [reflexivity|intro; reflexivity]|]); contradiction. }
    destruct Hk as [k [mk [Hk Hov]]]. apply (first_option_fails co n k f r W e Hk Ho E). intro name. rewrite Hov. unfold color_option. rewrite Tk. cbn [bind]. rewrite D, He. reflexivity.
  - intros Hn Hw. pose proof (while_fails f KPositiveNumber _ W o' Hw) as D.
    destruct (unknown_at (A := ctoken * clexer) f {| cl_input := W; cl_offset := o' |} (MExpectedA KPositiveNumber) O1 O) as [e [He Q]]. exists e. split; [|exact Q].
    assert (Hk : okind_of n = Some KFontSize /\ option_name n) by (split; [of_names Hn|name_ok Hn]). destruct Hk as [Hk Ho].
    apply (first_option_fails co n KFontSize f r W e Hk Ho E). intro name. cbn [option_value]. unfold font_size_option, take_positive_number. rewrite Tk. cbn [bind]. rewrite D, He. reflexivity.
Qed.
Print Assumptions C78_wrong_value.
Example C78_wrong_nonvacuous :
  (exists e, parse_cell ex_co (ex_field 0 (lit "[[validate=date_after(tomorrow)]]x")) default_row = Err e /\ ce_message e = MExpectedDate
     /\ ce_input e = lit "unrecognized token `tomorrow)]]x`" /\ one_of (lower (lit "date_after")) wants_a_date /\ begins_otherwise (is_digit (co_unicode ex_co)) (lit "tomorrow)]]x"))
  /\ (exists e, parse_cell ex_co (ex_field 0 (lit "[[validate=NUM_GT(ten)]]x")) default_row = Err e /\ ce_message e = MExpectedA KNumber)
  /\ (exists e, parse_cell ex_co (ex_field 0 (lit "[[color=!]]x")) default_row = Err e /\ ce_message e = MColorCharacter)
  /\ (exists e, parse_cell ex_co (ex_field 0 (lit "[[fontsize=big]]x")) default_row = Err e /\ ce_message e = MExpectedA KPositiveNumber).
Proof.
  split; [eexists; split; [vm_compute; reflexivity|]; split; [reflexivity|]; split; [reflexivity|]; split; [apply str_in_spec; vm_compute; reflexivity|vm_compute; split; reflexivity]|].
  split; [eexists; split; [vm_compute; reflexivity|reflexivity]|]. split; eexists; (split; [vm_compute; reflexivity|reflexivity]).
Qed.
