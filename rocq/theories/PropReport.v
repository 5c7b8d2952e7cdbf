(** * Properties C67 and C68: errors name the line and point at the character they are about. *)
From Coq Require Import Sorting.Sorted.
From Verif Require Import Base Csvp CsvpSpec CsvpTotal Ast AstLexer AstParser SourceCode SourceSpec Options CellLexer CellParser CellProofs Sheet
  ReportSpec ReportProofs CellReport PropCell.

Definition two_lines (a b : str) : str := a ++ [c_nl] ++ b.

(** C67 (partial): a syntax error in the code section names the line that the text shown in the
    message stands on, and (in ASCII code) the column it starts at. Missing: code with a string literal that spans
    lines or a line ending in fn (refuted below). *)
Theorem C67_code_line_partial : forall co text code e,
  code_section (source_code_new text) = Some code ->
  load_source co text = Err (BadCode e) ->
  strings_closed InCode code = true -> no_fn_at_line_end code ->
  exists a b, nth_error (lines_of text) (line_number (pe_position e)) = Some (a ++ b)
    /\ (ascii code -> length a = line_offset (pe_position e))
    /\ shown_at e b.
Proof.
  intros co text code e Hs H Hc Hf. apply (code_error_line (co_oracle co) text code e Hs); auto.
  revert H. unfold load_source. cbv zeta. rewrite Hs. destruct (code_section_parse (co_oracle co) code) as [[sc req]|pe| |]; cbn [bind]; try discriminate.
  - unfold sheet_parse. destruct (csvp_parse _ _) as [rs|ce| |]; cbn [bind]; try discriminate.
    destruct (parse_rows co rs) as [rows|le| |] eqn:Er; cbn [bind]; try discriminate. intro X; injection X as ->.
    destruct (rows_err _ _ _ Er) as [le' [_ [_ [_ [_ [_ [E0 _]]]]]]]. discriminate.
  - intro X; injection X as ->. reflexivity.
Qed.
Print Assumptions C67_code_line_partial.
Definition ex_code_error : str := two_lines (lit "a := ""x # y""") (two_lines (lit "b := 1 +  )") (two_lines (lit "---") (lit "a"))).
Example C67_code_nonvacuous : exists code e,
  code_section (source_code_new ex_code_error) = Some code /\ load_source ex_co ex_code_error = Err (BadCode e)
  /\ strings_closed InCode code = true /\ no_fn_at_line_end code
  /\ pe_position e = {| line_number := 1; line_offset := 10 |} /\ pe_saw e = [c_backtick] ++ lit ")" ++ [c_backtick].
Proof.
  eexists. exists (match load_source ex_co ex_code_error with Err (BadCode e) => e | _ => {| pe_kind := EUnknownToken; pe_position := {| line_number := 0; line_offset := 0 |}; pe_saw := []; pe_eof := false |} end).
  split; [vm_compute; reflexivity|]. split; [vm_compute; reflexivity|]. split; [vm_compute; reflexivity|]. split; [|split; vm_compute; reflexivity].
  intros a w b E _. assert (F : existsb (fun c => (c =? 102)%N) (a ++ lit "fn" ++ w ++ c_nl :: b) = false) by (rewrite <- E; vm_compute; reflexivity).
  rewrite existsb_app in F. cbn in F. rewrite orb_true_r in F. discriminate.
Qed.
(** C67 refuted: the string literal spans two lines, the stray parenthesis is on the third line of
    the file, and the second is reported. *)
Theorem C67_string_line_refuted : exists text e,
  load_source ex_co text = Err (BadCode e) /\ nth_error (lines_of text) 2 = Some (lit "b := )")
  /\ pe_saw e = [c_backtick] ++ lit ")" ++ [c_backtick] /\ line_number (pe_position e) = 1.
Proof.
  set (t := two_lines (lit "a := ""x") (two_lines (lit "y""") (two_lines (lit "b := )") (lit "---")))).
  exists t, (match load_source ex_co t with Err (BadCode e) => e | _ => {| pe_kind := EUnknownToken; pe_position := {| line_number := 0; line_offset := 0 |}; pe_saw := []; pe_eof := false |} end).
  split; [vm_compute; reflexivity|]. split; [vm_compute; reflexivity|]. split; vm_compute; reflexivity.
Qed.
Print Assumptions C67_string_line_refuted.
(** C67 refuted: the same after a line that ends in fn. *)
Theorem C67_fn_line_refuted : exists text e,
  load_source ex_co text = Err (BadCode e) /\ nth_error (lines_of text) 2 = Some (lit "b := )")
  /\ pe_saw e = [c_backtick] ++ lit ")" ++ [c_backtick] /\ line_number (pe_position e) = 1.
Proof.
  set (t := two_lines (lit "fn") (two_lines (lit "foo(a) a") (two_lines (lit "b := )") (lit "---")))).
  exists t, (match load_source ex_co t with Err (BadCode e) => e | _ => {| pe_kind := EUnknownToken; pe_position := {| line_number := 0; line_offset := 0 |}; pe_saw := []; pe_eof := false |} end).
  split; [vm_compute; reflexivity|]. split; [vm_compute; reflexivity|]. split; vm_compute; reflexivity.
Qed.
Print Assumptions C67_fn_line_refuted.

(** C67: in an ASCII file, an error in a cell (in its options or its formula) names a line the cell
    stands on: that of one of the characters it is read from. So for a cell on one line it is the
    line of the cell. *)
Theorem C67_cell_line : forall co text e,
  load_source co text = Err (BadCell e) -> ascii text ->
  let csv := csv_section (source_code_new text) in
  exists rs fs f raw idxs i ch,
    csvp_parse (csv_config text) csv = Ok rs
    /\ nth_error rs (addr_y (le_address e)) = Some fs /\ nth_error fs (addr_x (le_address e)) = Some f
    /\ cell_chars csv f raw idxs
    /\ In i idxs /\ nth_error csv i = Some ch
    /\ line_number (error_place e) = length_of_code_section (source_code_new text) + true_line csv i + line_break ch
    /\ (ch <> c_nl -> stands_at text i (line_number (error_place e)) (true_column csv i)).
Proof.
  intros co text e H A. cbv zeta. destruct (cell_error_line co text e H A) as [rs [fs [f [raw [idxs [i [ch [H1 [H2 [H3 [H4 [H5 [H6 H7]]]]]]]]]]]]].
  exists rs; exists fs; exists f; exists raw; exists idxs; exists i; exists ch. split; [exact H1|]. split; [exact H2|]. split; [exact H3|]. split; [exact H4|]. split; [exact H5|]. split; [exact H6|]. split; [exact H7|]. intro Hn.
  rewrite H7. unfold line_break. destruct (N.eqb_spec ch c_nl); [congruence|]. rewrite Nat.add_0_r. eapply csv_stands; eauto.
Qed.
Print Assumptions C67_cell_line.
Definition no_located : located_error := {| le_address := {| addr_x := 0; addr_y := 0 |}; le_error := BadFormula {| pe_kind := EUnknownToken; pe_position := {| line_number := 0; line_offset := 0 |}; pe_saw := []; pe_eof := false |} |}.
Definition cell_error_of (text : str) : located_error := match load_source ex_co text with Err (BadCell e) => e | _ => no_located end.
Definition ex_cell_error : str := two_lines (lit "a := 1") (two_lines (lit "---") (two_lines (lit "a,b") (lit "x,=1 + )"))).
Example C67_cell_nonvacuous :
  load_source ex_co ex_cell_error = Err (BadCell (cell_error_of ex_cell_error)) /\ ascii ex_cell_error
  /\ le_address (cell_error_of ex_cell_error) = {| addr_x := 1; addr_y := 1 |}
  /\ line_number (error_place (cell_error_of ex_cell_error)) = 3.
Proof. repeat split; vm_compute; reflexivity. Qed.
(** C67 refuted: with multi-byte characters in the formula the error is reported on the first line of the file. *)
Theorem C67_multibyte_refuted : exists text,
  load_source ex_co text = Err (BadCell (cell_error_of text))
  /\ le_address (cell_error_of text) = {| addr_x := 0; addr_y := 1 |}
  /\ lines_of text = [lit "a := 1"; lit "---"; lit "x"; lit "=""" ++ [233; 233; 233; 233; 233; 233]%N ++ lit """ + )"]
  /\ line_number (error_place (cell_error_of text)) = 0.
Proof.
  exists (two_lines (lit "a := 1") (two_lines (lit "---") (two_lines (lit "x") (lit "=""" ++ [233; 233; 233; 233; 233; 233]%N ++ lit """ + )")))).
  repeat split; vm_compute; reflexivity.
Qed.
Print Assumptions C67_multibyte_refuted.

(** C67: an error in the CSV itself names the line of the character it is about. *)
Theorem C67_csv_line : forall co text e,
  load_source co text = Err (BadCsv e) ->
  let csv := csv_section (source_code_new text) in
  exists i ch, nth_error csv i = Some ch /\ message e = InvalidTrailingCharacter ch
    /\ line_number (err_position e) = length_of_code_section (source_code_new text) + true_line csv i + line_break ch
    /\ (ch <> c_nl -> stands_at text i (line_number (err_position e)) (true_column csv i)).
Proof.
  intros co text e H. cbv zeta. revert H. unfold load_source. cbv zeta.
  destruct (match code_section _ with Some s => _ | None => _ end) as [[sc req]|le| |] eqn:Ecode; cbn [bind]; try discriminate.
  2:{ intro H. destruct (code_section _) as [s|]; [|discriminate]. destruct (code_section_parse _ _); congruence. }
  unfold sheet_parse. fold (csv_config text). destruct (csvp_parse (csv_config text) _) as [rs|ce| |] eqn:Ecsv; cbn [bind]; try discriminate.
  { destruct (parse_rows co rs) as [rows|pe| |] eqn:Erows; cbn [bind]; try discriminate. intro H; injection H as ->.
    destruct (rows_err _ _ _ Erows) as [le [y [fs [c [f [r [E1 _]]]]]]]. discriminate. }
  intro H; injection H as ->.
  destruct (csvp_total (csv_config text) (csv_section (source_code_new text))) as [[rs E]|[e' [i [ch [E1 [E2 [E3 [E4 _]]]]]]]]; [congruence|].
  rewrite Ecsv in E1. injection E1 as <-. exists i, ch. cbn [csv_config lines_above] in E4.
  assert (E5 : line_number (err_position e) = length_of_code_section (source_code_new text) + true_line (csv_section (source_code_new text)) i + line_break ch) by (rewrite E4; unfold line_break; lia).
  repeat split; auto. intro Hn. rewrite E5. unfold line_break. destruct (N.eqb_spec ch c_nl); [congruence|]. rewrite Nat.add_0_r. eapply csv_stands; eauto.
Qed.
Print Assumptions C67_csv_line.
Example C67_csv_nonvacuous : exists e, load_source ex_co (two_lines (lit "---") (two_lines (lit "a,b") (lit """x"" y,z"))) = Err (BadCsv e)
  /\ line_number (err_position e) = 2.
Proof. eexists. split; vm_compute; reflexivity. Qed.

(** C68 (partial): in an ASCII file, an error in a formula that is a whole one-line cell (no options, no blanks
    recorded before it) points at the character the shown text starts with: exactly on the first line of
    the CSV section, one column too far right on the others; an unexpected end points one past the
    cell's last character. Missing: the other cells (refuted below). *)
Theorem C68_formula_caret_partial : forall co text e p rs fs f,
  load_source co text = Err (BadCell e) -> ascii text -> le_error e = BadFormula p ->
  let csv := csv_section (source_code_new text) in
  csvp_parse (csv_config text) csv = Ok rs ->
  nth_error rs (addr_y (le_address e)) = Some fs -> nth_error fs (addr_x (le_address e)) = Some f ->
  starts_with [c_eq] (f_value f) = true ->
  exists raw idxs, cell_chars csv f raw idxs /\
  (forall w, raw = f_value f ++ w -> one_line raw = true ->
   exists pre b k i, f_value f = pre ++ b /\ shown_at p b
     /\ nth_error idxs k = Some i /\ k + (if pe_eof p then 1 else 0) = (if pe_eof p then length raw else length pre)
     /\ pe_position p = {| line_number := length_of_code_section (source_code_new text) + true_line csv i;
                           line_offset := true_column csv i + column_shift csv i + (if pe_eof p then 1 else 0) |}).
Proof. exact formula_caret. Qed.
Print Assumptions C68_formula_caret_partial.
Definition ex_caret : str := two_lines (lit "---") (lit "x, =1 + ) ,y").
Example C68_nonvacuous : exists p rs fs f,
  load_source ex_co ex_caret = Err (BadCell (cell_error_of ex_caret)) /\ ascii ex_caret /\ le_error (cell_error_of ex_caret) = BadFormula p
  /\ csvp_parse (csv_config ex_caret) (csv_section (source_code_new ex_caret)) = Ok rs
  /\ nth_error rs (addr_y (le_address (cell_error_of ex_caret))) = Some fs /\ nth_error fs (addr_x (le_address (cell_error_of ex_caret))) = Some f
  /\ f_value f = lit "=1 + )" /\ length (f_positions f) = 7
  /\ pe_position p = {| line_number := 1; line_offset := 8 |} /\ nth_error (lit "x, =1 + ) ,y") 8 = Some 41%N.
Proof.
  do 4 eexists. split; [vm_compute; reflexivity|]. split; [vm_compute; reflexivity|]. split; [vm_compute; reflexivity|]. split; [vm_compute; reflexivity|].
  split; [vm_compute; reflexivity|]. split; [vm_compute; reflexivity|]. repeat split; vm_compute; reflexivity.
Qed.

(** C68 refuted: after an option list the caret points into the options: the parenthesis stands in
    column 14, column 7 is marked. *)
Theorem C68_options_refuted : exists text p,
  load_source ex_co text = Err (BadCell (cell_error_of text)) /\ le_error (cell_error_of text) = BadFormula p
  /\ nth_error (lines_of text) 1 = Some (lit "x,[[t=b]]=1 + )")
  /\ pe_saw p = [c_backtick] ++ lit ")" ++ [c_backtick] /\ pe_position p = {| line_number := 1; line_offset := 7 |}
  /\ nth_error (lit "x,[[t=b]]=1 + )") 14 = Some 41%N /\ nth_error (lit "x,[[t=b]]=1 + )") 7 = Some 93%N.
Proof.
  exists (two_lines (lit "---") (lit "x,[[t=b]]=1 + )")). eexists.
  split; [vm_compute; reflexivity|]. split; [vm_compute; reflexivity|]. repeat split; vm_compute; reflexivity.
Qed.
Print Assumptions C68_options_refuted.
(** C68 refuted: in a formula that spans lines the caret is on the wrong line: the parenthesis is
    the first character of line 3, line 2 is marked. *)
Theorem C68_two_line_formula_refuted : exists text p,
  load_source ex_co text = Err (BadCell (cell_error_of text)) /\ le_error (cell_error_of text) = BadFormula p
  /\ lines_of text = [lit "---"; lit "x"; lit "x,""=1 + 2 +"; lit ")"""]
  /\ pe_saw p = [c_backtick] ++ lit ")" ++ [c_backtick] /\ pe_position p = {| line_number := 2; line_offset := 4 |}.
Proof.
  exists (two_lines (lit "---") (two_lines (lit "x") (two_lines (lit "x,""=1 + 2 +") (lit ")""")))). eexists.
  split; [vm_compute; reflexivity|]. split; [vm_compute; reflexivity|]. repeat split; vm_compute; reflexivity.
Qed.
Print Assumptions C68_two_line_formula_refuted.
(** C68 refuted: an invalid option value is marked one character before its end, not where it starts:
    in [[b=foo]] the value stands in columns 6 to 8, column 8 is marked. *)
Theorem C68_option_value_refuted : exists text c,
  load_source ex_co text = Err (BadCell (cell_error_of text)) /\ le_error (cell_error_of text) = BadOptions c
  /\ nth_error (lines_of text) 1 = Some (lit "x,[[b=foo]]y") /\ ce_position c = {| line_number := 1; line_offset := 8 |}
  /\ firstn 3 (skipn 6 (lit "x,[[b=foo]]y")) = lit "foo".
Proof.
  exists (two_lines (lit "---") (lit "x,[[b=foo]]y")). eexists.
  split; [vm_compute; reflexivity|]. split; [vm_compute; reflexivity|]. repeat split; vm_compute; reflexivity.
Qed.
Print Assumptions C68_option_value_refuted.
