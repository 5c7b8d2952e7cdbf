(** * AstParser: model of src/parser/ast_parser.rs, src/parser/code_section_parser.rs and the
    conversions in ast_lexer/token_match.rs and ast/node.rs they use.

    The parser works on the lexer's token list; [next]/[peek] (ast_lexer/mod.rs 137-148) are its
    head. Token positions only matter for error reporting, so the parsing functions see
    (token, text) pairs, and an error records how many tokens were left, counting the one it is
    about; [locate] turns that back into a position. *)
From Verif Require Import Base Csvp Ast AstLexer.

Notation tok := (token * list N)%type (only parsing).

(** The distinct error messages of the modelled functions. *)
Inductive perr_kind :=
| EBoolean | EFloat | EInteger | EMalformedString | EUnterminatedString | ENonTerminal
| EExpectedCloseParen | EInvalidPrefix | EExpectedNumberAfterPrefix | EExpectedExpression
| EUnexpectedToken (t : token) | ENotAFunctionId | EPercentOnNonNumber
| EUnexpectedPostfix
| EExpectedDefinition | EExpectedAssign | EExpectedFnName | EExpectedFnParen | EExpectedFnArgs
| EUnknownToken.
(** [e_left]: number of tokens left when the error was raised, including the offending token
    (0 for the end of input). *)
Record perr := { e_kind : perr_kind; e_left : nat }.

(** ast/node.rs 78-112 [text_unquote] *)
Fixpoint unquote_loop (s : str) (saw_start last_quote : bool) (acc : str)
  : (perr_kind + str) :=
  match s with
  | [] => if last_quote then inr (rev acc) else inl EUnterminatedString
  | c :: r =>
      if (c =? c_dquote)%N then
        if last_quote then unquote_loop r saw_start false (c :: acc)
        else if negb saw_start then unquote_loop r true false acc
        else unquote_loop r saw_start true acc
      else if last_quote then inl EMalformedString
      else unquote_loop r saw_start last_quote (c :: acc)
  end.
Definition text_unquote (t : str) : (perr_kind + str) :=
  match t with
  | c :: _ => if (c =? c_dquote)%N then unquote_loop t false false [] else inr t
  | [] => inr t
  end.

(** [str::parse::<i64>] on a \d+ lexeme: non-ASCII digits and values over i64::MAX are errors. *)
Definition I64_MAX : N := 9223372036854775807%N.
Definition parse_i64 (s : str) : option Z :=
  if all_digits s
  then let v := digits_value s in if (v <=? I64_MAX)%N then Some (Z.of_N v) else None
  else None.

(** ast_lexer/token_match.rs 73-113 [Ast::try_from(TokenMatch)] *)
Definition ast_try_from (o : oracle) (t : tok) : (perr_kind + node) :=
  match t with
  | (TBoolean, s) =>
      if str_eqb (ascii_lower s) (lit "true") then inr (NBool true)
      else if str_eqb (ascii_lower s) (lit "false") then inr (NBool false)
      else inl EBoolean
  | (TFloat, s) => match f64_canon o s with
                   | Some v => inr (NFloat false None v)
                   | None => inl EFloat
                   end
  | (TInteger, s) => match parse_i64 s with
                     | Some v => inr (NInt false None v)
                     | None => inl EInteger
                     end
  | (TReference, s) => inr (NRef s)
  | (TDoubleQuotedString, s) =>
      match text_unquote s with inr x => inr (NText x) | inl e => inl e end
  | _ => inl ENonTerminal
  end.

(** ast_parser.rs 27-31, 270-275 *)
Definition prefix_power (op : str) : option nat :=
  if str_eqb op (lit "+") || str_eqb op (lit "-") then Some 170 else None.
(** ast_parser.rs 33-37, 277-283 *)
Definition postfix_power (op : str) : option nat :=
  if str_eqb op (lit "(") then Some 210
  else if str_eqb op (lit "%") then Some 160
  else None.
(** ast_parser.rs 285-297: the precedence class of each infix operator *)
Definition infix_class (op : str) : option nat :=
  if str_eqb op (lit ":") then Some 20
  else if str_eqb op (lit "!") then Some 19
  else if str_eqb op (lit "~") then Some 18
  else if str_eqb op (lit "^") then Some 15
  else if str_eqb op (lit "*") || str_eqb op (lit "/") then Some 14
  else if str_eqb op (lit "+") || str_eqb op (lit "-") then Some 13
  else if str_eqb op (lit "&") then Some 12
  else if str_eqb op (lit "=") || str_eqb op (lit "<") || str_eqb op (lit ">")
          || str_eqb op (lit "<=") || str_eqb op (lit ">=") || str_eqb op (lit "<>") then Some 11
  else None.
(** ast_parser.rs 21-25: [infix_power!(p)] is (p*10 + 1, p*10) *)
Definition infix_power (op : str) : option (nat * nat) :=
  match infix_class op with Some p => Some (p * 10 + 1, p * 10) | None => None end.

(** lexer [peek]: the next token, or end of input *)
Definition peek (ts : list tok) : tok := match ts with [] => (TEof, []) | t :: _ => t end.
Definition fail {A} (k : perr_kind) (ts : list tok) : outcome perr A :=
  Err {| e_kind := k; e_left := length ts |}.

(** ast_parser.rs 130-153: the sign of a prefix operator replaces the sign of a number *)
Definition apply_sign (s : sign) (n : node) : option node :=
  match n with
  | NInt p _ v => Some (NInt p (Some s) v)
  | NFloat p _ v => Some (NFloat p (Some s) v)
  | _ => None
  end.
(** ast_parser.rs 216-237 *)
Definition apply_percent (n : node) : option node :=
  match n with
  | NFloat _ s v => Some (NFloat true s v)
  | NInt _ s v => Some (NInt true s v)
  | _ => None
  end.

(** ast_parser.rs 95-268. [single] is [self.single_expr]. [expr_bp] is lines 95-157 followed by
    the loop, [bp_loop] the loop of 159-265, [call_args] the loop of 199-213 (its accumulator is
    the argument list, reversed). The result carries the unread tokens. *)
Fixpoint expr_bp (fuel : nat) (o : oracle) (single : bool) (min_bp : nat) (ts : list tok)
  {struct fuel} : outcome perr (node * list tok) :=
  match fuel with
  | 0 => NoFuel
  | S f =>
      match ts with
      | [] => fail EExpectedExpression ts
      | (TOpenParen, _) :: r =>
          do (e, r1) <- expr_bp f o single 0 r;
          match r1 with
          | (TCloseParen, _) :: r2 => bp_loop f o single min_bp e r2
          | _ => fail EExpectedCloseParen r1
          end
      | (TOperator, op) :: r =>
          match prefix_power op with
          | None => fail EInvalidPrefix ts
          | Some r_bp =>
              let s := if str_eqb op (lit "+") then Positive else Negative in
              do (e, r1) <- expr_bp f o single r_bp r;
              match apply_sign s e with
              | Some e' => bp_loop f o single min_bp e' r1
              | None => fail EExpectedNumberAfterPrefix ts
              end
          end
      | (TBoolean, _) as t :: r | (TDoubleQuotedString, _) as t :: r | (TFloat, _) as t :: r
      | (TInteger, _) as t :: r | (TReference, _) as t :: r =>
          match ast_try_from o t with
          | inr e => bp_loop f o single min_bp e r
          | inl k => fail k ts
          end
      | _ => fail EExpectedExpression ts
      end
  end
with bp_loop (fuel : nat) (o : oracle) (single : bool) (min_bp : nat) (lhs : node) (ts : list tok)
  {struct fuel} : outcome perr (node * list tok) :=
  match fuel with
  | 0 => NoFuel
  | S f =>
      let (t, op) := peek ts in
      let stop := match t with TReference | TFunctionDefinition => single | _ => false end in
      if stop then Ok (lhs, ts)
      else
      match t with
      | TComma | TCloseParen | TEof => Ok (lhs, ts)
      | TOperator | TOpenParen =>
          match postfix_power op with
          | Some l_bp =>
              if l_bp <? min_bp then Ok (lhs, ts)
              else if str_eqb op (lit "(") then
                match lhs with
                | NRef id =>
                    do (args, r) <- call_args f o single [] (tl ts);
                    bp_loop f o single min_bp (NCall args id) r
                | _ => fail ENotAFunctionId ts
                end
              else if str_eqb op (lit "%") then
                match apply_percent lhs with
                | Some e => bp_loop f o single min_bp e (tl ts)
                | None => fail EPercentOnNonNumber ts
                end
              else fail EUnexpectedPostfix ts
          | None =>
              match infix_power op with
              | Some (l_bp, r_bp) =>
                  if l_bp <? min_bp then Ok (lhs, ts)
                  else
                    do (rhs, r) <- expr_bp f o single r_bp (tl ts);
                    bp_loop f o single min_bp (NInfix lhs op rhs) r
              | None => Ok (lhs, ts)
              end
          end
      | _ => fail (EUnexpectedToken t) ts
      end
  end
with call_args (fuel : nat) (o : oracle) (single : bool) (acc : list node) (ts : list tok)
  {struct fuel} : outcome perr (list node * list tok) :=
  match fuel with
  | 0 => NoFuel
  | S f =>
      match fst (peek ts) with
      | TCloseParen => Ok (rev acc, tl ts)
      | TComma => call_args f o single acc (tl ts)
      | _ =>
          do (e, r) <- expr_bp f o single 0 ts;
          call_args f o single (e :: acc) r
      end
  end.

(** Fuel that always suffices (proved in AstParserProofs.v). *)
Definition parser_fuel (ts : list tok) : nat := 2 * length ts + 2.

Definition erase (l : list token_match) : list tok := map (fun t => (tm_token t, tm_str t)) l.

(** The token an error is about, as [TokenMatch] carries it (ast_lexer/token_match.rs 10-17);
    [None] is the Eof token, which the parser makes up when the tokens are used up
    (ast_lexer/mod.rs 138-160). *)
Definition error_token (lx : lexed) (left : nat) : option token_match :=
  nth_error (lx_tokens lx) (length (lx_tokens lx) - left).

(** A reported parse error (error/parse_error.rs 7-30) without the highlighted lines and possible
    values: the kind stands for the message; [pe_saw] is the offending text as printed after
    'but saw' (without the hint about commas that an Eof in a cell adds, token_match.rs 59-64);
    [pe_eof] tells whether the token is Eof. *)
Record parse_error := { pe_kind : perr_kind; pe_position : position; pe_saw : str; pe_eof : bool }.

(** ast_lexer/token_match.rs 27-42 (without a field), 55-71, and source_code/errors.rs 53-67 *)
Definition locate {A} (lx : lexed) (r : outcome perr A) : outcome parse_error A :=
  match r with
  | Ok a => Ok a
  | Err e =>
      Err match error_token lx (e_left e) with
          | Some t => {| pe_kind := e_kind e; pe_position := tm_position t;
                         pe_saw := [c_backtick] ++ tm_str t ++ [c_backtick]; pe_eof := false |}
          | None => {| pe_kind := e_kind e; pe_position := lx_eof lx;
                       pe_saw := lit "EOF"; pe_eof := true |}
          end
  | Panic => Panic
  | NoFuel => NoFuel
  end.

(** ast_lexer/unknown_token.rs 14-43 and source_code/errors.rs 53-67: building the error for an
    unknown token prints the rest of the input cut to 50 bytes with [String::truncate], which
    panics when byte 50 is inside a character. *)
Definition unknown_error {A} (u : unknown_token) : outcome parse_error A :=
  let e saw := Err {| pe_kind := EUnknownToken; pe_position := ut_position u; pe_saw := saw; pe_eof := false |} in
  if utf8_len (ut_input u) <=? 50 then e (ut_input u)
  else match byte_split 50 (ut_input u) with
       | Some (shown, _) => e shown
       | None => Panic
       end.

(** ast_parser.rs 50-57 [AstParser::parse]: lexes, parses one expression, ignores what is left. *)
Definition ast_parse (o : oracle) (single : bool) (input : str) : outcome parse_error node :=
  match ast_lex (o_unicode o) input with
  | Ok lx =>
      let ts := erase (lx_tokens lx) in
      locate lx (do (e, _) <- expr_bp (parser_fuel ts) o single 0 ts; Ok e)
  | Err u => unknown_error u
  | Panic => Panic
  | NoFuel => NoFuel
  end.

(** ast_parser.rs 63-91 [parse_key_value_str]: "key=value" strings from the command line.
    [None] is the InitError for a string without '='. *)
Fixpoint split_once (c : char) (s : str) : option (str * str) :=
  match s with
  | [] => None
  | x :: r => if (x =? c)%N then Some ([], r)
              else match split_once c r with Some (a, b) => Some (x :: a, b) | None => None end
  end.
Fixpoint parse_key_values (o : oracle) (kvs : list str) (acc : list (str * node))
  : outcome (option parse_error) (list (str * node)) :=
  match kvs with
  | [] => Ok acc
  | kv :: rest =>
      match split_once c_eq kv with
      | Some (k, v) =>
          match ast_parse o false v with
          | Ok n => parse_key_values o rest (assoc_insert k n acc)
          | Err e => Err (Some e)
          | Panic => Panic
          | NoFuel => NoFuel
          end
      | None => Err None
      end
  end.

(** ** code_section_parser.rs *)

(** code_section_parser.rs 122-137: the parameter list of a definition *)
Fixpoint fn_params (ts : list tok) (acc : list str) : outcome perr (list str * list tok) :=
  match ts with
  | (TCloseParen, _) :: r => Ok (rev acc, r)
  | (TComma, _) :: r => fn_params r acc
  | (TReference, s) :: r => fn_params r (s :: acc)
  | _ => fail EExpectedFnArgs ts
  end.

(** code_section_parser.rs 148-154 *)
Definition section_expr (o : oracle) (ts : list tok) : outcome perr (node * list tok) :=
  expr_bp (parser_fuel ts) o true 0 ts.

(** code_section_parser.rs 99-146 *)
Definition parse_fn_definition (o : oracle) (ts : list tok)
  : outcome perr (str * node * list tok) :=
  match ts with
  | (TReference, name) :: r =>
      match r with
      | (TOpenParen, _) :: r1 =>
          do (args, r2) <- fn_params r1 [];
          do (body, r3) <- section_expr o r2;
          Ok (name, NFn args body name, r3)
      | _ => fail EExpectedFnParen r
      end
  | _ => fail EExpectedFnName ts
  end.

(** code_section_parser.rs 84-92 *)
Definition parse_variable_assign (o : oracle) (ts : list tok) : outcome perr (node * list tok) :=
  match ts with
  | (TVarAssign, _) :: r => section_expr o r
  | _ => fail EExpectedAssign ts
  end.

(** src/module_path/try_from.rs 29-41: any token is accepted as a module name *)
Definition module_path := list str.
Definition module_path_of_token (s : str) : module_path := split_on c_slash s.

(** code_section_parser.rs 45-76 (and 79-81). One iteration per definition. *)
Fixpoint parse_scope (fuel : nat) (o : oracle) (ts : list tok) (sc : scope) (req : list module_path)
  : outcome perr (scope * list module_path) :=
  match fuel with
  | 0 => NoFuel
  | S f =>
      match ts with
      | [] => Ok (sc, req)
      | (TFunctionDefinition, _) :: r =>
          do (nf, r1) <- parse_fn_definition o r;
          let (name, fn) := (nf : str * node) in
          parse_scope f o r1 (define_function sc name fn) req
      | (TUseModule, _) :: r =>
          parse_scope f o (tl r) sc (req ++ [module_path_of_token (snd (peek r))])
      | (TReference, name) :: r =>
          do (e, r1) <- parse_variable_assign o r;
          parse_scope f o r1 (define_variable sc name (NVar name (VAst e))) req
      | _ => fail EExpectedDefinition ts
      end
  end.

(** code_section_parser.rs 33-43 [CodeSectionParser::parse] *)
Definition code_section_parse (o : oracle) (input : str)
  : outcome parse_error (scope * list module_path) :=
  match ast_lex (o_unicode o) input with
  | Ok lx =>
      let ts := erase (lx_tokens lx) in
      locate lx (parse_scope (S (length ts)) o ts empty_scope [])
  | Err u => unknown_error u
  | Panic => Panic
  | NoFuel => NoFuel
  end.
