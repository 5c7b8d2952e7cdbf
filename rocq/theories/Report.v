(** * Report: model of what the program prints about a failure: src/error/display.rs, src/error/parse_error.rs, src/error/eval_error.rs,
    src/source_code/errors.rs and the wording of the parsers of formulas and code.

    Simplifications. The escape codes for colours (colored, which leaves them out when the output is not a terminal) are left out. The
    wording is a parameter where it is a debugging print or a message of the standard library. *)
From Verif Require Import Base Csvp Ast AstLexer AstParser SourceCode CellLexer CellParser Eval Sheet Loader.

(** error/parse_error.rs 7-30 *)
Record shown_error := { se_input : str; se_lines : list str; se_message : str; se_position : position; se_possible : option (list str) }.
(** [writeln!] *)
Definition line (s : str) : str := s ++ [c_nl].
(** error/parse_error.rs 32-64 *)
Definition show_parse_error (e : shown_error) : str :=
  line (lit "On line " ++ dec (N.of_nat (line_number (se_position e) + 1)) ++ lit " " ++ se_message e ++ lit " but saw " ++ se_input e)
  ++ match se_possible e with Some pv => line (lit "Possible values: " ++ join (lit " | ") pv) | None => [] end
  ++ match se_lines e with [] => [] | _ => line [] end
  ++ concat (map line (se_lines e)).
(** error/eval_error.rs 10-14 *)
Definition show_eval_error (message bad_input : str) : str := message ++ lit ": " ++ bad_input.

(** The wording that is not modelled: file names as Rust debugs them, module paths, the standard library's messages in errors in options,
    the rest of the messages of parsers, the messages of the operating system. *)
Record wording := {
  wd_file : file -> str;
  wd_module : module_path -> str;
  wd_option : cell_message -> str;
  wd_parser : perr_kind -> str;
  wd_io : load_failure -> str
}.

(** parser/ast_parser.rs 100-239, code_section_parser.rs 69-133, ast_lexer/token_match.rs 76-112, ast_lexer/unknown_token.rs 38-43,
    ast/node.rs 98-105 *)
Definition parser_message (w : wording) (k : perr_kind) : str :=
  match k with
  | EBoolean => lit "Error parsing boolean value: expected `true` or `false`"
  | EMalformedString => lit "Malformed double-quoted string"
  | EUnterminatedString => lit "Unterminated double-quoted string"
  | EExpectedCloseParen => lit "Expected close parenthesis (`)`)"
  | EInvalidPrefix => lit "Invalid prefix operator"
  | EExpectedNumberAfterPrefix => lit "Expected a number or float after prefix operator"
  | EExpectedExpression => lit "Expected an expression"
  | EUnexpectedPostfix => lit "Unexpected postfix operator"
  | EExpectedDefinition => lit "Expected an `fn` or variable definition (`:=`) operator"
  | EExpectedAssign => lit "Expected a variable definition operator (`:=`)"
  | EExpectedFnName => lit "Expected a function name"
  | EExpectedFnParen => lit "Expected `(` for a function definition"
  | EExpectedFnArgs => lit "Expected comma-separated function arguments or `)`"
  | EUnknownToken => lit "Error parsing input - invalid token"
  | EFloat | EInteger | ENonTerminal | EUnexpectedToken _ | ENotAFunctionId | EPercentOnNonNumber => wd_parser w k
  end.
(** ast_lexer/token_match.rs 59-64 *)
Definition comma_hint : str :=
  c_nl :: lit "If your formula has a comma in it, you might need to escape it with quotes (i.e. `foo,""=my_function(1, 2)"",bar`)".
(** source_code/errors.rs 53-67 with the Display of token_match.rs 55-71 (in_cell: the token has a field) and unknown_token.rs *)
Definition shown_parse_error (w : wording) (src : source_code) (in_cell : bool) (e : parse_error) : outcome unit shown_error :=
  do ls <- highlight_line src (pe_position e);
  Ok {| se_input := pe_saw e ++ (if pe_eof e && in_cell then comma_hint else []); se_lines := ls; se_message := parser_message w (pe_kind e);
        se_position := pe_position e; se_possible := None |}.
(** cell_lexer/token.rs 24-28: the Display of a token is its name; [KOther] stands for those that are not taken by [take_while] *)
Definition token_name (k : ckind) : str :=
  match k with
  | KA1 => lit "A1" | KColor => lit "Color" | KDate => lit "Date" | KIdentifier => lit "Identifier" | KNumber => lit "Number"
  | KOptionName => lit "OptionName" | KPositiveNumber => lit "PositiveNumber" | KString => lit "String" | KOther => []
  end.
(** the messages at the places listed with [cell_message] in CellLexer.v *)
Definition cell_message_text (w : wording) (m : cell_message) : str :=
  match m with
  | MExpected t => lit "Error parsing input, expected '" ++ t ++ lit "'"
  | MExpectedA k => lit "Expected a " ++ token_name k
  | MExpectedDate => lit "Expected a date"
  | MExpectedQuote => lit "Expected a starting single quote"
  | MUnterminatedQuote => lit "Unterminated single-quoted string"
  | MExpectedListItem => lit "Expected a date, number or string"
  | MInvalidValue o _ => lit "received invalid value when parsing `" ++ o ++ lit "` option"
  | MRowOptionsPlace => lit "You can only define a row options on the first cell"
  | MOptionsTwice => lit "You can only define options once per cell"
  | MFillPlace => lit "`fill` can only be used in a `![[..]]`"
  | MUnknownOption => lit "Expected a valid cell option"
  | MFillAmount => lit "Error parsing fill= repetitions: " ++ wd_option w m
  | MFontSize => lit "Error parsing fontsize: " ++ wd_option w m
  | MInteger => lit "Unable to parse integer: " ++ wd_option w m
  | MFloat => lit "Unable to parse float: " ++ wd_option w m
  | MDate => lit "Unable to parse date"
  | MRange => lit "Expected an A1 reference: " ++ wd_option w m
  | MColor | MColorCharacter | MText => wd_option w m
  end.
(** source_code/errors.rs 53-79, error/cell_parse_error.rs 33-60 *)
Definition shown_cell_error (w : wording) (src : source_code) (e : cell_error) : outcome unit shown_error :=
  do ls <- highlight_line src (ce_position e);
  Ok {| se_input := ce_input e; se_lines := ls; se_message := cell_message_text w (ce_message e); se_position := ce_position e;
        se_possible := match ce_message e with MInvalidValue _ possible => Some possible | _ => None end |}.
(** csvp/src/parser.rs 205, 238-240 *)
Definition csv_message (m : csvp_message) : str :=
  match m with
  | ExpectedQuotedCharacterGotEof => lit "Expected a quoted character but got EOF"
  | InvalidTrailingCharacter c => lit "Invalid trailing character after quoted string: " ++ [c]
  end.
(** source_code/errors.rs 37-51 *)
Definition shown_csv_error (src : source_code) (e : csvp_error) : outcome unit shown_error :=
  do ls <- highlight_line src (err_position e);
  Ok {| se_input := bad_input e; se_lines := ls; se_message := csv_message (message e); se_position := err_position e; se_possible := None |}.
(** error/display.rs 7-30, with spreadsheet/mod.rs 70-76 *)
Definition show_load_error (w : wording) (f : file) (text : str) (e : load_error) : outcome unit str :=
  let src := source_code_new text in
  match e with
  | BadCell le =>
      do s <- match le_error le with BadOptions c => shown_cell_error w src c | BadFormula p => shown_parse_error w src true p end;
      Ok (line (lit "Syntax error in cell " ++ show_address (le_address le) ++ lit " of " ++ wd_file w f) ++ line (show_parse_error s))
  | BadCode p =>
      do s <- shown_parse_error w src false p;
      Ok (line (lit "Syntax error in code section of " ++ wd_file w f) ++ line (show_parse_error s))
  | BadCsv c =>
      do s <- shown_csv_error src c;
      Ok (line (lit "Syntax error in CSV section of " ++ wd_file w f) ++ line (show_parse_error s))
  end.
(** error/display.rs 84-87 for the other failures to load a module *)
Definition show_load_failure (w : wording) (text_of : file -> str) (e : load_failure) : outcome unit str :=
  match e with
  | BadSource f e => show_load_error w f (text_of f) e
  | Unreadable f => Ok (line (lit "Error reading source " ++ wd_file w f) ++ line (wd_io w e))
  | Unstatable f => Ok (line (lit "Error reading source " ++ wd_file w f) ++ line (wd_io w e))
  end.
(** ast/eval.rs 114-121: the function, and a message *)
Definition arity_message (e : eval_error) : str :=
  lit "Expected " ++ dec (N.of_nat (ee_expected e)) ++ lit " arguments but received " ++ dec (N.of_nat (ee_received e)).
(** spreadsheet/mod.rs 28-33 *)
Definition fills_message : str :=
  lit "Multiple infinite fills - you can only have one without a fill amount and all others must supply an amount (i.e., `![[fill=10]]` rather than `![[fill]]`)".
(** error/display.rs 32-47, with module/mod.rs 36-41, row/mod.rs 43-47 *)
Definition show_module_error (w : wording) (f : file) (e : module_error) : str :=
  match e with
  | CellEval a e =>
      line (lit "Error evaluating formula in cell " ++ show_address a ++ lit " (" ++ dec (N.of_nat (addr_x a)) ++ lit ", "
            ++ dec (N.of_nat (addr_y a)) ++ lit ") of " ++ wd_file w f)
      ++ line (show_eval_error (arity_message e) (show (ee_function e)))
  | MultipleInfiniteFills =>
      line (lit "Error evaluating formula in " ++ wd_file w f) ++ line (show_eval_error fills_message (lit "![[fill]]"))
  end.
(** error/display.rs 76-82: [l] is the map in its iteration order *)
Fixpoint show_module_errors (w : wording) (text_of : file -> str) (l : list (module_path * load_failure)) : outcome unit str :=
  match l with
  | [] => Ok []
  | (m, e) :: r =>
      do s <- show_load_failure w text_of e;
      do rest <- show_module_errors w text_of r;
      Ok (line (lit "Error loading module " ++ wd_module w m) ++ line s ++ rest)
  end.
(** error/display.rs 4-95 for what compiling fails with. [file_of] is the file of a module; the error of an object file that cannot be written is not
    printed here. *)
Definition show_compile_error (w : wording) (text_of : file -> str) (file_of : module_path -> file) (main : file) (e : compile_error)
  : option (outcome unit str) :=
  match e with
  | MainNotLoaded e => Some (show_load_failure w text_of e)
  | ModuleLoadErrors l => Some (show_module_errors w text_of l)
  | DependencyEval p e =>
      Some (Ok (line (lit "Error evaluating formula in " ++ wd_file w (file_of p)) ++ line (show_eval_error (arity_message e) (show (ee_function e)))))
  | MainEval e => Some (Ok (show_module_error w main e))
  | NotWritten _ => None
  end.
