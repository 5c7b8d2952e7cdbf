(** * Property C73: what is printed about a failure says where it is. *)
From Coq Require Import Decimal DecimalN DecimalFacts.
From Verif Require Import Base BaseProofs Csvp CsvpSpec Ast AstProofs AstLexer AstParser SourceCode SourceSpec SourceCodeProofs Options CellLexer CellParser CellProofs Eval Sheet SheetSpec
  SheetProofs Loader ReportSpec Report DateProofs PropCell PropReport PropVariables PropLoader.

(** The report shows line [number] (from 1) of the file, which reads [text], with a caret below its character [col] (from 0):
    both lines have the text after a colon and a blank, at the same distance from the margin. *)
Definition shows_line (report : str) (number : nat) (text : str) (col : nat) : Prop :=
  exists before pad margin after,
    report = before ++ [c_nl] ++ ([c_space] ++ dec (N.of_nat number) ++ pad ++ lit ": " ++ text)
                    ++ [c_nl] ++ (margin ++ lit ": " ++ repeat c_minus col ++ [c_caret]) ++ [c_nl] ++ after
    /\ Forall (eq c_space) (pad ++ margin)
    /\ length margin = length ([c_space] ++ dec (N.of_nat number) ++ pad).

(** ** Lemmas *)
Lemma dec_head n : (0 < n)%N -> exists c r, dec n = c :: r /\ c <> 48%N.
Proof.
  intro H. unfold dec. pose proof (Unsigned.to_of (N.to_uint n)) as U. rewrite Unsigned.of_to in U.
  pose proof (dec_nonempty n) as Hn. unfold dec in Hn.
  destruct (N.to_uint n) as [|r|r|r|r|r|r|r|r|r|r] eqn:E; cbn [uint_str] in *; [congruence| |eauto..].
  all: try (eexists; eexists; split; [reflexivity|discriminate]).
  exfalso. unfold unorm in U. cbn [nzhead] in U. pose proof (nzhead_nonzero r) as Z. destruct (nzhead r) eqn:Er; try discriminate U.
  - assert (n = N.of_uint (N.to_uint n)) as D by (symmetry; apply Unsigned.of_to). rewrite E, U in D. cbn in D. lia.
  - exact (Z u eq_refl).
Qed.
Lemma fold_ge s : forallb is_ascii_digit s = true -> forall acc, (acc * 10 ^ N.of_nat (length s) <= fold_left (fun acc c => acc * 10 + (c - 48)) s acc)%N.
Proof.
  induction s as [|c s IH]; cbn [forallb fold_left length]; intros H acc; [change (10 ^ N.of_nat 0)%N with 1%N; lia|].
  apply andb_prop in H as [_ H]. specialize (IH H (acc * 10 + (c - 48))%N). rewrite Nat2N.inj_succ, N.pow_succ_r'. nia.
Qed.
Lemma dec_length_mono a b : (0 < a <= b)%N -> length (dec a) <= length (dec b).
Proof.
  intros [Ha Hb]. destruct (Nat.le_gt_cases (length (dec a)) (length (dec b))) as [L|L]; [exact L|exfalso].
  destruct (dec_head a Ha) as [c [r [E Hc]]]. pose proof (dec_digits a) as D. pose proof (dec_value a) as V. rewrite E in *. cbn [forallb length] in *.
  apply andb_prop in D as [Dc Dr]. unfold digits_value in V. cbn [fold_left] in V. pose proof (fold_ge r Dr (0 * 10 + (c - 48))%N) as G. rewrite V in G.
  pose proof (digits_value_bound (dec b) (dec_digits b) 0%N) as B. pose proof (dec_value b) as Vb. unfold digits_value in Vb. rewrite Vb in B.
  assert (10 ^ N.of_nat (length (dec b)) <= 10 ^ N.of_nat (length r))%N by (apply N.pow_le_mono_r; lia).
  unfold is_ascii_digit in Dc. assert (1 <= c - 48)%N by lia. nia.
Qed.
Lemma repeat_spaces n : Forall (eq c_space) (repeat c_space n).
Proof. apply Forall_forall. intros x H. apply repeat_spec in H. congruence. Qed.

Lemma highlighted src pos : line_number pos < length (lines_of (original src)) -> exists ls, highlight_line src pos = Ok ls /\ ls <> []
  /\ forall head, shows_line (head ++ line [] ++ concat (map line ls)) (line_number pos + 1) (nth (line_number pos) (lines_of (original src)) []) (line_offset pos).
Proof.
  intro L. pose proof (highlight_shape src pos) as H. cbv zeta in H. destruct (Nat.leb_spec (length (lines_of (original src))) (line_number pos)) as [X|_]; [lia|].
  eexists. split; [exact H|]. split; [intro X; apply app_eq_nil in X as [_ X]; discriminate X|]. clear H. intro head.
  set (n := line_number pos). set (w := length (dec (N.of_nat (n + 3)))). set (ls := lines_of (original src)).
  set (A := excerpt w ls (n - 3) (n - (n - 3))). set (B := excerpt w ls (S n) (Nat.min 3 (length ls - S n))).
  rewrite !map_app, !concat_app.
  destruct (@exists_last _ (line [] ++ concat (map line A)) ltac:(discriminate)) as [bef [x Ex]].
  assert (x = c_nl) as ->.
  { clear -Ex. destruct A as [|a A0] using rev_ind.
    - cbn in Ex. destruct bef as [|? [|? ?]]; cbn in Ex; try discriminate Ex; congruence.
    - rewrite map_app, concat_app in Ex. cbn [map concat] in Ex. rewrite app_nil_r in Ex. unfold line at 3 in Ex. rewrite !app_assoc in Ex. apply app_inj_tail in Ex as [_ <-]. reflexivity. }
  exists (head ++ bef), (repeat c_space (w - length (dec (N.of_nat (n + 1))))), (repeat c_space (S (Nat.max w 1))), (concat (map line B)).
  assert (W : 1 <= w). { subst w. pose proof (dec_nonempty (N.of_nat (n + 3))). destruct (dec _); [congruence|cbn; lia]. }
  assert (W2 : length (dec (N.of_nat (n + 1))) <= w) by (apply dec_length_mono; lia).
  split; [|split].
  - rewrite (app_assoc (line [])). rewrite Ex. cbn [map concat]. rewrite !app_nil_r. unfold numbered, pad_right, line. replace (S n) with (n + 1) by lia.
    rewrite <- !app_assoc. f_equal. f_equal. f_equal. f_equal. f_equal. f_equal. cbn [app lit]. f_equal. f_equal. f_equal. f_equal.
    replace (Nat.max w 1) with w by lia. cbn [repeat app]. f_equal.
    destruct w as [|w']; [lia|]. cbn [length repeat app]. replace (S w' - 1) with w' by lia. reflexivity.
  - apply Forall_app. split; apply repeat_spaces.
  - rewrite !app_length, !repeat_length. cbn [length]. lia.
Qed.

Lemma shown_line e src head tail : line_number (se_position e) < length (lines_of (original src)) -> highlight_line src (se_position e) = Ok (se_lines e) ->
  shows_line (head ++ show_parse_error e ++ tail) (line_number (se_position e) + 1) (nth (line_number (se_position e)) (lines_of (original src)) []) (line_offset (se_position e)).
Proof.
  intros L H. destruct (highlighted src (se_position e) L) as [ls [E [Hn K]]]. rewrite H in E. injection E as <-.
  unfold show_parse_error. destruct (se_lines e) as [|l0 ls] eqn:El; [congruence|]. rewrite <- El in *.
  set (h := line (lit "On line " ++ _)). set (pv := match se_possible e with Some _ => _ | None => _ end).
  destruct (K (head ++ h ++ pv)) as [before [pad [margin [after [E [F1 F2]]]]]].
  exists before, pad, margin, (after ++ tail). split; [|auto]. rewrite <- !app_assoc. rewrite <- !app_assoc in E.
  transitivity ((head ++ h ++ pv ++ line [] ++ concat (map line (se_lines e))) ++ tail); [rewrite <- !app_assoc; reflexivity|].
  rewrite E. rewrite <- !app_assoc. cbn [app]. rewrite <- ?app_assoc. cbn [app]. reflexivity.
Qed.

(** Where an error in a source file is reported. *)
Definition place_of (e : load_error) : position :=
  match e with BadCell le => error_place le | BadCode p => pe_position p | BadCsv c => err_position c end.
(** What of the file the error is in. *)
Definition part_named (e : load_error) (t : str) : Prop :=
  match e with
  | BadCell le => exists name, t = lit "cell " ++ name /\ names_cell name (addr_x (le_address le)) (addr_y (le_address le))
  | BadCode _ => t = lit "code section"
  | BadCsv _ => t = lit "CSV section"
  end.
(** The two first lines of a report. *)
Definition begins (report : str) (part file : str) (number : nat) : Prop :=
  exists rest, report = lit "Syntax error in " ++ part ++ lit " of " ++ file ++ [c_nl] ++ lit "On line " ++ dec (N.of_nat number) ++ lit " " ++ rest.

(** C73: for every source text and every error in it, the report can be printed; it begins with the part of the file, the file and the
    number of the line, and it shows that line, with a caret at the column of the error. *)
Theorem C73_report : forall w f text e, exists report part,
  show_load_error w f text e = Ok report
  /\ part_named e part /\ begins report part (wd_file w f) (line_number (place_of e) + 1)
  /\ forall l, nth_error (lines_of text) (line_number (place_of e)) = Some l ->
       shows_line report (line_number (place_of e) + 1) l (line_offset (place_of e)).
Proof.
  intros w f text e. set (src := source_code_new text).
  assert (Ho : original src = text) by (unfold src, source_code_new; cbv zeta; destruct (position_of _ _); reflexivity).
  assert (P : exists s what, se_position s = place_of e /\ highlight_line src (place_of e) = Ok (se_lines s)
    /\ show_load_error w f text e = Ok (line (lit "Syntax error in " ++ what ++ lit " of " ++ wd_file w f) ++ line (show_parse_error s)) /\ part_named e what).
  { unfold show_load_error. fold src. destruct (highlight_line src (place_of e)) as [ls|u| |] eqn:Eh.
    2-4: pose proof (highlight_shape src (place_of e)) as X; cbv zeta in X; rewrite Eh in X; destruct (length _ <=? _); discriminate X.
    destruct e as [c|le|p]; cbn [place_of] in Eh.
    - unfold shown_csv_error. rewrite Eh. cbn [bind]. eexists. exists (lit "CSV section"). split; [|split; [|split; [reflexivity|reflexivity]]]; reflexivity.
    - destruct le as [a [c|p]]; cbn [le_error le_address error_place] in *.
      + unfold shown_cell_error. unfold error_place in Eh; cbn [le_error] in Eh. rewrite Eh. cbn [bind]. eexists. exists (lit "cell " ++ show_address a).
        split; [|split; [|split]]. 3: rewrite <- app_assoc; reflexivity. 1-2: reflexivity.
        exists (show_address a). split; [reflexivity|]. destruct a as [x y]. apply show_address_spec.
      + unfold shown_parse_error. unfold error_place in Eh; cbn [le_error] in Eh. rewrite Eh. cbn [bind]. eexists. exists (lit "cell " ++ show_address a).
        split; [|split; [|split]]. 3: rewrite <- app_assoc; reflexivity. 1-2: reflexivity.
        exists (show_address a). split; [reflexivity|]. destruct a as [x y]. apply show_address_spec.
    - unfold shown_parse_error. rewrite Eh. cbn [bind]. eexists. exists (lit "code section"). split; [|split; [|split; [reflexivity|reflexivity]]]; reflexivity. }
  destruct P as [s [what [Ep [El [Es Hw]]]]]. eexists. exists what. split; [exact Es|]. split; [exact Hw|]. split.
  - rewrite <- Ep. unfold line at 1. unfold show_parse_error, line. eexists. rewrite <- !app_assoc. reflexivity.
  - intros l Hl. rewrite <- Ep in *. rewrite <- Ho in Hl. unfold line at 2.
    assert (L : line_number (se_position s) < length (lines_of (original src))) by (apply nth_error_Some; congruence).
    rewrite <- (nth_error_nth _ _ [] Hl). apply shown_line; auto.
Qed.
Print Assumptions C73_report.

(** C73: an error in a cell of an ASCII file: the report names the cell and a line the cell stands on, and shows this line. (The case left
    out is an error at a line break inside the cell: it is reported on the line that follows.) *)
Theorem C73_cell : forall w f co text e, load_source co text = Err (BadCell e) -> ascii text ->
  let csv := csv_section (source_code_new text) in
  let n := line_number (error_place e) in
  exists report name rs fs fd raw idxs i ch,
    show_load_error w f text (BadCell e) = Ok report
    /\ names_cell name (addr_x (le_address e)) (addr_y (le_address e)) /\ begins report (lit "cell " ++ name) (wd_file w f) (n + 1)
    /\ csvp_parse (csv_config text) csv = Ok rs
    /\ nth_error rs (addr_y (le_address e)) = Some fs /\ nth_error fs (addr_x (le_address e)) = Some fd
    /\ cell_chars csv fd raw idxs /\ In i idxs /\ nth_error csv i = Some ch
    /\ (ch <> c_nl -> exists l, shows_line report (n + 1) l (line_offset (error_place e)) /\ nth_error (lines_of text) n = Some l
        /\ (nth_error l (true_column csv i) = Some ch \/ ch = c_cr)).
Proof.
  intros w f co text e H A. cbv zeta. destruct (C67_cell_line co text e H A) as [rs [fs [fd [raw [idxs [i [ch [H1 [H2 [H3 [H4 [H5 [H6 [H7 H8]]]]]]]]]]]]]].
  destruct (C73_report w f text (BadCell e)) as [report [part [R1 [[name [-> R2]] [R3 R4]]]]]. cbn [place_of] in *.
  exists report, name, rs, fs, fd, raw, idxs, i, ch. repeat (split; [assumption|]).
  intro Hn. destruct (H8 Hn) as [ch' [l [G1 [G2 G3]]]]. rewrite H6 in G1. injection G1 as <-. exists l. split; [apply R4, G2|]. auto.
Qed.
Print Assumptions C73_cell.

(** C73 (partial): an error in the code section: the report names the code section and the line that the text it complains about stands on, shows
    the line, and (in ASCII code) has the caret below the beginning of that text. Missing: string literals over several lines, lines ending in
    fn (C67_string_line_refuted, C67_fn_line_refuted). *)
Theorem C73_code_partial : forall w f co text code e,
  code_section (source_code_new text) = Some code -> load_source co text = Err (BadCode e) ->
  strings_closed InCode code = true -> no_fn_at_line_end code ->
  exists report a b,
    show_load_error w f text (BadCode e) = Ok report
    /\ begins report (lit "code section") (wd_file w f) (line_number (pe_position e) + 1)
    /\ nth_error (lines_of text) (line_number (pe_position e)) = Some (a ++ b) /\ shown_at e b
    /\ (exists col, shows_line report (line_number (pe_position e) + 1) (a ++ b) col /\ (ascii code -> col = length a)).
Proof.
  intros w f co text code e H1 H2 H3 H4. destruct (C67_code_line_partial co text code e H1 H2 H3 H4) as [a [b [G1 [G2 G3]]]].
  destruct (C73_report w f text (BadCode e)) as [report [part [R1 [-> [R3 R4]]]]]. cbn [place_of] in *.
  exists report, a, b. repeat (split; [assumption|]). exists (line_offset (pe_position e)). split; [apply R4, G1|]. intro A. symmetry. apply G2, A.
Qed.
Print Assumptions C73_code_partial.

(** C73: an error in the CSV itself. *)
Theorem C73_csv : forall w f co text e, load_source co text = Err (BadCsv e) ->
  let csv := csv_section (source_code_new text) in
  let n := line_number (err_position e) in
  exists report i ch,
    show_load_error w f text (BadCsv e) = Ok report /\ begins report (lit "CSV section") (wd_file w f) (n + 1)
    /\ nth_error csv i = Some ch
    /\ (exists rest, report = lit "Syntax error in CSV section of " ++ wd_file w f ++ [c_nl] ++ lit "On line " ++ dec (N.of_nat (n + 1))
         ++ lit " Invalid trailing character after quoted string: " ++ [ch] ++ lit " but saw " ++ rest)
    /\ (ch <> c_nl -> exists l, shows_line report (n + 1) l (line_offset (err_position e)) /\ nth_error (lines_of text) n = Some l
        /\ (nth_error l (true_column csv i) = Some ch \/ ch = c_cr)).
Proof.
  intros w f co text e H. cbv zeta. destruct (C67_csv_line co text e H) as [i [ch [H1 [H2 [H3 H4]]]]].
  destruct (C73_report w f text (BadCsv e)) as [report [part [R1 [-> [R3 R4]]]]]. cbn [place_of] in *.
  exists report, i, ch. split; [assumption|]. split; [assumption|]. split; [assumption|]. split.
  { clear -R1 H2. cbn [show_load_error] in R1. unfold shown_csv_error in R1. destruct (highlight_line _ _) as [ls| | |]; cbn [bind] in R1; try discriminate R1.
    rewrite H2 in R1. unfold show_parse_error in R1. cbn [se_position se_message se_input se_possible se_lines csv_message] in R1. unfold line in R1.
    rewrite <- !app_assoc in R1. eexists. symmetry. injection R1 as R1. exact R1. }
  intro Hn. destruct (H4 Hn) as [ch' [l [G1 [G2 G3]]]]. rewrite H1 in G1. injection G1 as <-. exists l. split; [apply R4, G2|]. auto.
Qed.
Print Assumptions C73_csv.

(** C73: when modules cannot be loaded, every one of them is named, followed by its own report. *)
Theorem C73_modules : forall w text_of l, exists report, show_module_errors w text_of l = Ok report
  /\ forall m e, In (m, e) l -> exists r before after, show_load_failure w text_of e = Ok r
       /\ report = before ++ lit "Error loading module " ++ wd_module w m ++ [c_nl] ++ r ++ [c_nl] ++ after.
Proof.
  intros w text_of l. induction l as [|[m e] l IH]; cbn [show_module_errors].
  { exists []. split; [reflexivity|]. intros m e []. }
  assert (exists r, show_load_failure w text_of e = Ok r) as [r Er].
  { destruct e as [g|g|g e]; cbn [show_load_failure]; [eexists; reflexivity..|]. destruct (C73_report w g (text_of g) e) as [r [_ [H _]]]. eauto. }
  destruct IH as [report [Es IH]]. rewrite Er, Es. cbn [bind]. eexists. split; [reflexivity|]. intros m' e' [X|X].
  - injection X as <- <-. exists r, [], report. split; [exact Er|]. unfold line. rewrite <- !app_assoc. reflexivity.
  - destruct (IH m' e' X) as [r' [b [a [G1 G2]]]]. exists r', (line (lit "Error loading module " ++ wd_module w m) ++ line r ++ b), a. split; [exact G1|].
    rewrite G2. rewrite <- !app_assoc. reflexivity.
Qed.
Print Assumptions C73_modules.

Section Arity.
Variable sc : scope.
(** the function an error is about *)
Definition miscalled (k : eval_error) : Prop :=
  exists f ps body name, assoc f (functions sc) = Some (NFn ps body name) /\ ee_function k = NFn ps body name
    /\ ee_received k = length ps /\ ee_expected k <> length ps.
Lemma call_function_err f fn : assoc f (functions sc) = Some fn -> forall n k, call_function f fn n = Err k -> miscalled k.
Proof.
  intro Hf. fix IH 1. intros n k. destruct n as [b|d|p g v|ps b nm|args name|l op r|p g v|t|t|t v]; cbn [call_function]; try discriminate.
  - destruct (str_eqb name f).
    + clear IH. destruct fn; try discriminate. destruct (Nat.eqb_spec (length args) (length args0)) as [|N0]; [discriminate|].
      intro H. injection H as <-. do 4 eexists. cbn [ee_function ee_expected ee_received]. split; [exact Hf|]. auto.
    + match goal with |- context [do args' <- ?g args; _] => assert (G : forall l e, g l = Err e -> miscalled e) end.
      { induction l as [|a l IHl]; [discriminate|]. intros e. destruct (call_function f fn a) as [a'|e1| |] eqn:Ea; cbn [bind]; try discriminate.
        - match goal with |- context [do r' <- ?x; _] => destruct x as [r'|e1| |] eqn:Er end; cbn [bind]; try discriminate. intro H. injection H as <-. apply IHl. reflexivity.
        - intro H. injection H as <-. apply (IH a). exact Ea. }
      match goal with |- context [do args' <- ?x; _] => destruct x as [x'|e1| |] eqn:Ex end; cbn [bind]; try discriminate.
      intro H. injection H as <-. apply (G args). exact Ex.
  - destruct (call_function f fn l) as [l'|e1| |] eqn:El; cbn [bind]; try discriminate.
    + destruct (call_function f fn r) as [r'|e1| |] eqn:Er; cbn [bind]; try discriminate. intro H. injection H as <-. apply (IH r). exact Er.
    + intro H. injection H as <-. apply (IH l). exact El.
  - destruct v; try discriminate. destruct (call_function f fn n) as [a'|e1| |] eqn:Ea; cbn [bind]; try discriminate. intro H. injection H as <-. apply (IH n). exact Ea.
Qed.
Lemma eval_functions_err : forall fs n k, eval_functions sc fs n = Err k -> miscalled k.
Proof.
  induction fs as [|f fs IH]; intros n k; cbn [eval_functions]; [discriminate|]. destruct (assoc f (functions sc)) as [fn|] eqn:Ef; [|apply IH].
  destruct (call_function f fn n) as [n'|e| |] eqn:Ec; cbn [bind]; try discriminate; [apply IH|]. intro H. injection H as <-. eapply call_function_err; eauto.
Qed.
Lemma resolve_no_err pos : forall xs k, resolve_variables sc pos xs = Err k -> False.
Proof.
  induction xs as [|x xs IH]; intros k; cbn [resolve_variables]; [discriminate|]. destruct (variable_node sc pos x) as [[v| | |]|]; try discriminate; [|apply IH].
  destruct (resolve_variables sc pos xs) as [m|e| |]; cbn [bind]; try discriminate. intros _. apply (IH e). reflexivity.
Qed.
Lemma ast_eval_err fuel ord pos n k : ast_eval fuel ord sc pos n = Err k -> miscalled k.
Proof.
  unfold ast_eval. generalize 0 as i, no_references as last. revert n. induction fuel as [|fuel IH]; intros n i last; cbn [eval_loop]; [discriminate|].
  destruct (_ || _); [discriminate|]. unfold eval_round. destruct (resolve_variables sc pos _) as [m|e| |] eqn:Er; cbn [bind]; try discriminate.
  - destruct (eval_functions sc _ _) as [n'|e| |] eqn:Ef; cbn [bind]; try discriminate; [apply IH|]. intro H. injection H as <-. eapply eval_functions_err; eauto.
  - exfalso. eapply resolve_no_err; eauto.
Qed.
End Arity.

(** C73 (partial): when the formula of a cell calls a function with a wrong number of arguments, the report names the cell and ends with the
    definition of the function. Missing: that it gives the two numbers the right way round (refuted below). *)
Theorem C73_evaluation_partial : forall w f ev sched p ext a k, main_eval ev sched p ext = Err (CellEval a k) ->
  exists p1 r c n name rest g ps body gname,
    module_eval_fills p = Ok p1
    /\ nth_error (sheet_rows (pr_sheet p1)) (addr_y a) = Some r /\ nth_error (row_cells r) (addr_x a) = Some c /\ cell_ast c = Some n
    /\ ast_eval (ev_fuel ev) (ev_order ev a) (sheet_scope p1 ext) (Some a) n = Err k
    /\ names_cell name (addr_x a) (addr_y a) /\ assoc g (functions (sheet_scope p1 ext)) = Some (NFn ps body gname)
    /\ show_module_error w f (CellEval a k) = lit "Error evaluating formula in cell " ++ name ++ rest ++ lit ": " ++ show (NFn ps body gname) ++ [c_nl].
Proof.
  intros w f ev sched p ext a k H. destruct (C52_failure _ _ _ _ _ H) as [[X _]|[p1 [a' [r [c [n [k' [H1 [H2 [H3 [H4 [H5 H6]]]]]]]]]]]]; [discriminate|].
  injection H2 as <- <-. destruct (ast_eval_err _ _ _ _ _ _ H6) as [g [ps [body [gname [G1 [G2 _]]]]]].
  exists p1, r, c, n, (show_address a), (lit " (" ++ dec (N.of_nat (addr_x a)) ++ lit ", " ++ dec (N.of_nat (addr_y a)) ++ lit ") of " ++ wd_file w f ++ [c_nl] ++ arity_message k), g, ps, body, gname. repeat (split; [assumption|]). split; [destruct a as [x y]; apply show_address_spec|].
  split; [exact G1|]. cbn [show_module_error]. rewrite G2. unfold line, show_eval_error. rewrite <- !app_assoc. reflexivity.
Qed.
Print Assumptions C73_evaluation_partial.

(** C73: whatever compiling fails with, except for an object file that cannot be written, is printed; the report names every file concerned: the files
    that could not be read or have errors in them, or the file of the module that could not be evaluated. *)
Definition failing_file (e : load_failure) : file := match e with Unreadable f | Unstatable f | BadSource f _ => f end.
Definition concerned (file_of : module_path -> file) (main : file) (e : compile_error) (f : file) : Prop :=
  match e with
  | MainNotLoaded x => f = failing_file x
  | ModuleLoadErrors l => exists m x, In (m, x) l /\ f = failing_file x
  | DependencyEval m _ => f = file_of m
  | MainEval _ => f = main
  | NotWritten _ => False
  end.
Definition mentions (report t : str) : Prop := exists before after, report = before ++ t ++ after.
Lemma load_failure_named w text_of e : exists r, show_load_failure w text_of e = Ok r /\ mentions r (wd_file w (failing_file e)).
Proof.
  destruct e as [g|g|g e]; cbn [show_load_failure failing_file].
  - eexists. split; [reflexivity|]. exists (lit "Error reading source "). unfold line. eexists. rewrite <- !app_assoc. reflexivity.
  - eexists. split; [reflexivity|]. exists (lit "Error reading source "). unfold line. eexists. rewrite <- !app_assoc. reflexivity.
  - destruct (C73_report w g (text_of g) e) as [r [part [H [_ [[rest B] _]]]]]. exists r. split; [exact H|].
    exists (lit "Syntax error in " ++ part ++ lit " of "). eexists. rewrite B, <- !app_assoc. reflexivity.
Qed.
Theorem C73_compiling : forall w text_of file_of main e, (forall f, e <> NotWritten f) ->
  exists report, show_compile_error w text_of file_of main e = Some (Ok report)
  /\ forall f, concerned file_of main e f -> mentions report (wd_file w f).
Proof.
  intros w text_of file_of main e N. destruct e as [x|l|m k|f|k]; cbn [show_compile_error concerned].
  - destruct (load_failure_named w text_of x) as [r [-> H]]. exists r. split; [reflexivity|]. intros f ->. exact H.
  - destruct (C73_modules w text_of l) as [r [-> H]]. exists r. split; [reflexivity|]. intros f [m [x [I ->]]].
    destruct (H m x I) as [r' [b [a [E1 ->]]]]. destruct (load_failure_named w text_of x) as [r2 [E2 [b2 [a2 M]]]]. rewrite E2 in E1. injection E1 as <-. subst r2.
    exists (b ++ lit "Error loading module " ++ wd_module w m ++ [c_nl] ++ b2), (a2 ++ [c_nl] ++ a). rewrite <- !app_assoc. reflexivity.
  - eexists. split; [reflexivity|]. intros f ->. exists (lit "Error evaluating formula in "). unfold line. eexists. rewrite <- !app_assoc. reflexivity.
  - destruct (N f). reflexivity.
  - eexists. split; [reflexivity|]. intros f ->. destruct k as [|a k]; cbn [show_module_error].
    + exists (lit "Error evaluating formula in "). unfold line. eexists. rewrite <- !app_assoc. reflexivity.
    + exists (lit "Error evaluating formula in cell " ++ show_address a ++ lit " (" ++ dec (N.of_nat (addr_x a)) ++ lit ", "
            ++ dec (N.of_nat (addr_y a)) ++ lit ") of "). unfold line. eexists. rewrite <- !app_assoc. reflexivity.
Qed.
Print Assumptions C73_compiling.

(** C73: the report of a problem with the options of a cell says what should have stood there: the very text, when one text was expected, or
    the sort of text; two sorts never have the same name. It also shows the text that was found instead. *)
Theorem C73_expected : forall w f text a c, exists report,
  show_load_error w f text (BadCell {| le_address := a; le_error := BadOptions c |}) = Ok report
  /\ (forall t, ce_message c = MExpected t -> mentions report (lit "expected '" ++ t ++ lit "' but saw " ++ ce_input c))
  /\ (forall k, ce_message c = MExpectedA k -> mentions report (lit "Expected a " ++ token_name k ++ lit " but saw " ++ ce_input c)).
Proof.
  intros w f text a c. cbn [show_load_error le_error le_address]. set (src := source_code_new text). unfold shown_cell_error.
  destruct (highlight_line src (ce_position c)) as [ls|u| |] eqn:Eh.
  2-4: pose proof (highlight_shape src (ce_position c)) as X; cbv zeta in X; rewrite Eh in X; destruct (length _ <=? _); discriminate X.
  cbn [bind]. eexists. split; [reflexivity|]. split; intros t E; unfold show_parse_error, line, mentions; cbn [se_message se_input se_position se_lines se_possible]; rewrite E; cbn [cell_message_text].
  - exists (lit "Syntax error in cell " ++ show_address a ++ lit " of " ++ wd_file w f ++ [c_nl] ++ lit "On line " ++ dec (N.of_nat (line_number (ce_position c) + 1)) ++ lit " Error parsing input, ").
    eexists. change (lit "Error parsing input, expected '") with (lit "Error parsing input, " ++ lit "expected '"). change (lit " Error parsing input, ") with (lit " " ++ lit "Error parsing input, "). change (lit "' but saw ") with (lit "'" ++ lit " but saw ").
    rewrite <- !app_assoc. reflexivity.
  - exists (lit "Syntax error in cell " ++ show_address a ++ lit " of " ++ wd_file w f ++ [c_nl] ++ lit "On line " ++ dec (N.of_nat (line_number (ce_position c) + 1)) ++ lit " ").
    eexists. rewrite <- !app_assoc. reflexivity.
Qed.
Print Assumptions C73_expected.
(** What the report of a problem in the code section, or in a formula, says should have stood there. *)
Inductive wanted : perr_kind -> str -> Prop :=
| want_string : wanted EUnterminatedString (lit "Unterminated double-quoted string")
| want_paren : wanted EExpectedCloseParen (lit "Expected close parenthesis (`)`)")
| want_prefix : wanted EInvalidPrefix (lit "Invalid prefix operator")
| want_number : wanted EExpectedNumberAfterPrefix (lit "Expected a number or float after prefix operator")
| want_expression : wanted EExpectedExpression (lit "Expected an expression")
| want_postfix : wanted EUnexpectedPostfix (lit "Unexpected postfix operator")
| want_definition : wanted EExpectedDefinition (lit "Expected an `fn` or variable definition (`:=`) operator")
| want_assign : wanted EExpectedAssign (lit "Expected a variable definition operator (`:=`)")
| want_name : wanted EExpectedFnName (lit "Expected a function name")
| want_params : wanted EExpectedFnParen (lit "Expected `(` for a function definition")
| want_args : wanted EExpectedFnArgs (lit "Expected comma-separated function arguments or `)`")
| want_token : wanted EUnknownToken (lit "Error parsing input - invalid token")
| want_boolean : wanted EBoolean (lit "Error parsing boolean value: expected `true` or `false`")
| want_quotes : wanted EMalformedString (lit "Malformed double-quoted string").
Theorem C73_wanted : forall w f text a e t, wanted (pe_kind e) t ->
  (exists report, show_load_error w f text (BadCode e) = Ok report /\ mentions report (t ++ lit " but saw " ++ pe_saw e))
  /\ (exists report, show_load_error w f text (BadCell {| le_address := a; le_error := BadFormula e |}) = Ok report /\ mentions report (t ++ lit " but saw " ++ pe_saw e)).
Proof.
  intros w f text a e t H. assert (M : parser_message w (pe_kind e) = t) by (destruct H; reflexivity).
  cbn [show_load_error le_error le_address]. set (src := source_code_new text). unfold shown_parse_error.
  destruct (highlight_line src (pe_position e)) as [ls|u| |] eqn:Eh.
  2-4: pose proof (highlight_shape src (pe_position e)) as X; cbv zeta in X; rewrite Eh in X; destruct (length _ <=? _); discriminate X.
  cbn [bind]. rewrite M. split; eexists; (split; [reflexivity|]); unfold show_parse_error, line, mentions; cbn [se_message se_input se_position se_lines se_possible].
  - exists (lit "Syntax error in code section of " ++ wd_file w f ++ [c_nl] ++ lit "On line " ++ dec (N.of_nat (line_number (pe_position e) + 1)) ++ lit " ").
    eexists. rewrite <- !app_assoc. reflexivity.
  - exists (lit "Syntax error in cell " ++ show_address a ++ lit " of " ++ wd_file w f ++ [c_nl] ++ lit "On line " ++ dec (N.of_nat (line_number (pe_position e) + 1)) ++ lit " ").
    eexists. rewrite <- !app_assoc. reflexivity.
Qed.
Print Assumptions C73_wanted.
(** Two unbounded fills are reported as such, with what to write instead. *)
Theorem C73_fills : forall w f, show_module_error w f MultipleInfiniteFills =
  lit "Error evaluating formula in " ++ wd_file w f ++ [c_nl]
  ++ lit "Multiple infinite fills - you can only have one without a fill amount and all others must supply an amount (i.e., `![[fill=10]]` rather than `![[fill]]`): ![[fill]]" ++ [c_nl].
Proof. intros w f. cbn [show_module_error]. unfold line, show_eval_error. rewrite <- app_assoc. reflexivity. Qed.
Print Assumptions C73_fills.
Theorem C73_sorts : forall k k', token_name k = token_name k' -> k = k'.
Proof. destruct k, k'; intro H; try reflexivity; vm_compute in H; discriminate H. Qed.
Print Assumptions C73_sorts.

(** C73 refuted: the numbers of arguments that were expected and received are swapped: every call of a function that is defined with
    another number of parameters is reported as expecting the number that was given. *)
Theorem C73_arity_refuted : forall f ps body name args, length args <> length ps -> exists k,
  call_function f (NFn ps body name) (NCall args f) = Err k
  /\ arity_message k = lit "Expected " ++ dec (N.of_nat (length args)) ++ lit " arguments but received " ++ dec (N.of_nat (length ps)).
Proof.
  intros f ps body name args H. cbn [call_function]. destruct (str_eqb_spec f f) as [_|X]; [|congruence]. rewrite (proj2 (Nat.eqb_neq _ _) H).
  eexists. split; reflexivity.
Qed.
Print Assumptions C73_arity_refuted.

(** C73 refuted: the margin is as wide as the number of the third line after the error, counted from 0, not from 1. So when the error is on line 7 the texts of
    lines 9 and 10 are not aligned. *)
Theorem C73_margin_refuted : highlight_line (source_code_new (lit "1
2
3
4
5
6
7
8
9
10
11")) {| line_number := 6; line_offset := 0 |} = Ok (map lit [" 4: 4"; " 5: 5"; " 6: 6"; " 7: 7"; "  : ^"; " 8: 8"; " 9: 9"; " 10: 10"]%string).
Proof. vm_compute. reflexivity. Qed.
Print Assumptions C73_margin_refuted.

(** What tests/error_messages.rs expects. *)
Definition ex_wording : wording := {| wd_file := fun f => lit """" ++ join (lit "/") f ++ lit ".csvpp"""; wd_module := join (lit "/"); wd_option := fun _ => lit "?";
  wd_parser := fun _ => lit "?"; wd_io := fun _ => lit "?" |}.
Definition ex_report (text : str) : outcome unit str :=
  match load_source ex_co text with Err e => show_load_error ex_wording [lit "main"] text e | _ => Panic end.
Example C73_code_nonvacuous : ex_report (lit "
## Welcome to the all_features.csvpp test. this is a comment
##
fn foo_fn<a, b, c> a + b * c
---
foo,bar
") = Ok (lit "Syntax error in code section of ""main.csvpp""
On line 4 Expected `(` for a function definition but saw `<`

 1: 
 2: ## Welcome to the all_features.csvpp test. this is a comment
 3: ##
 4: fn foo_fn<a, b, c> a + b * c
  : ---------^
 5: ---
 6: foo,bar

").
Proof. vm_compute. reflexivity. Qed.
Example C73_cell_nonvacuous : ex_report (lit "
# it's a common problem that the `function_in_file1(1, 2)` call needs to be quoted 
# because it has a comma
---
function_in_file1(1 * 2)  ,   =function_in_file1(1, 2)    , should be 1 * 44
") = Ok (lit "Syntax error in cell B1 of ""main.csvpp""
On line 5 Expected an expression but saw EOF
If your formula has a comma in it, you might need to escape it with quotes (i.e. `foo,""=my_function(1, 2)"",bar`)

 2: # it's a common problem that the `function_in_file1(1, 2)` call needs to be quoted 
 3: # because it has a comma
 4: ---
 5: function_in_file1(1 * 2)  ,   =function_in_file1(1, 2)    , should be 1 * 44
  : --------------------------------------------------^

").
Proof. vm_compute. reflexivity. Qed.
Example C73_evaluation_nonvacuous :
  match main_eval ex_env [] (match load_source ex_co (lit "fn f(a) a
---
=f(1)
=1,""=f(1, 2)""") with Ok p => p | _ => {| pr_scope := empty_scope; pr_sheet := {| sheet_rows := []; fills_expanded := true |}; pr_required := [] |} end) [] with
  | Err e => show_module_error ex_wording [lit "main"] e | _ => [] end
  = lit "Error evaluating formula in cell B2 (1, 1) of ""main.csvpp""
Expected 2 arguments but received 1: f(a) a
".
Proof. vm_compute. reflexivity. Qed.
(** Problems with options, as they are printed. *)
Example C73_options_nonvacuous :
  ex_report (lit "a,[[fill=3]]b") = Ok (lit "Syntax error in cell B1 of ""main.csvpp""
On line 1 `fill` can only be used in a `![[..]]` but saw `fill`

 1: a,[[fill=3]]b
  : -------^

")
  /\ ex_report (lit "[[note 'x']]b") = Ok (lit "Syntax error in cell A1 of ""main.csvpp""
On line 1 Error parsing input, expected '=' but saw unrecognized token `'x']]b`

 1: [[note 'x']]b
  : ------^

")
  /\ ex_report (lit "[[fontsize=x]]b") = Ok (lit "Syntax error in cell A1 of ""main.csvpp""
On line 1 Expected a PositiveNumber but saw unrecognized token `x]]b`

 1: [[fontsize=x]]b
  : ----------^

").
Proof. split; [|split]; vm_compute; reflexivity. Qed.
