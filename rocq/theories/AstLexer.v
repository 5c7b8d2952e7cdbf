(** * AstLexer: model of src/parser/ast_lexer and src/parser/token_matcher.rs.

    Every regular expression of token_library.rs is written out as the function that returns the
    text it matches at the start of the input (leftmost-first semantics of the regex crate) and
    the rest. The common prefix [^\S\r\n]* of token_matcher.rs 27 is skipped once beforehand: it
    matches white space only, and none of the token patterns can start with white space other
    than \n, so there is nothing to backtrack into. *)
From Verif Require Import Base Csvp Ast.

(** ast_lexer/token.rs 1-19 *)
Inductive token :=
| TBoolean | TCloseParen | TCodeSectionEof | TComma | TComment | TDoubleQuotedString | TEof
| TFloat | TFunctionDefinition | TInteger | TNewline | TOpenParen | TOperator | TReference
| TUseModule | TVarAssign.

(** token_matcher.rs 15-20 and 27: white space other than \r and \n *)
Definition is_blank (c : char) : bool := is_ws c && negb (c =? c_nl)%N && negb (c =? c_cr)%N.

Definition matcher := str -> option (str * str).
(** a literal pattern *)
Definition m_lit (p : str) : matcher := fun s =>
  match strip_prefix p s with Some r => Some (p, r) | None => None end.
(** one or more characters of a class *)
Definition m_plus (f : char -> bool) : matcher := fun s =>
  match span f s with ([], _) => None | (a, r) => Some (a, r) end.
(** token_library.rs 50: ordered alternatives of literals *)
Fixpoint m_alt (ps : list str) : matcher := fun s =>
  match ps with
  | [] => None
  | p :: ps' => match m_lit p s with Some x => Some x | None => m_alt ps' s end
  end.

(** token_library.rs 54 *)
Definition m_newline : matcher := m_lit [c_nl].
(** token_library.rs 43: [#.*] ([.] is any character but \n) *)
Definition m_comment : matcher := fun s =>
  match s with
  | c :: r => if (c =? c_hash)%N
              then let (a, b) := span (fun x => negb (x =? c_nl)%N) r in Some (c :: a, b)
              else None
  | [] => None
  end.
(** token_library.rs 46-49: a quote, any number of doubled quotes or non-quotes, a quote. After the
    opening quote the loop prefers a doubled quote, then any non-quote; a lone quote ends the match. If the input ends first, backtracking
    leaves the loop at the last doubled quote it took and matches the first half of that pair as
    the closing quote; [last] is (text up to and including that quote, rest after it).
    [acc] is the text matched so far, reversed. *)
Fixpoint m_dq_loop (s acc : str) (last : option (str * str)) : option (str * str) :=
  match s with
  | [] => last
  | c :: r =>
      if (c =? c_dquote)%N then
        match r with
        | c' :: r' =>
            if (c' =? c_dquote)%N
            then m_dq_loop r' (c' :: c :: acc) (Some (rev (c :: acc), r))
            else Some (rev (c :: acc), r)
        | [] => Some (rev (c :: acc), r)
        end
      else m_dq_loop r (c :: acc) last
  end.
Definition m_dq : matcher := fun s =>
  match s with
  | c :: r => if (c =? c_dquote)%N then m_dq_loop r [c] None else None
  | [] => None
  end.
(** token_library.rs 53: [fn\s+] *)
Definition m_fn : matcher := fun s =>
  match strip_prefix (lit "fn") s with
  | Some r => match span is_ws r with
              | ([], _) => None
              | (a, b) => Some (lit "fn" ++ a, b)
              end
  | None => None
  end.
(** token_library.rs 50 *)
Definition operators : list str :=
  [lit "^"; lit "+"; lit "-"; lit "*"; lit "/"; lit "&"; lit "%"; lit "<="; lit ">="; lit "<>";
   lit "<"; lit ">"; lit "="].
Definition m_operator : matcher := m_alt operators.
(** token_library.rs 51-52: [\d+] and [\d+\.\d*] *)
Definition m_integer (u : unicode) : matcher := m_plus (is_digit u).
Definition m_float (u : unicode) : matcher := fun s =>
  match span (is_digit u) s with
  | ([], _) => None
  | (a, c :: r) => if (c =? c_dot)%N
                   then let (d, r') := span (is_digit u) r in Some (a ++ c :: d, r')
                   else None
  | (_, []) => None
  end.
(** token_library.rs 56: the class [$!\w:] and the pattern [$!\w:]+[$!\w:.]? (the first part is
    greedy, so the optional character can only be a dot) *)
Definition ref_char (u : unicode) (c : char) : bool :=
  (c =? c_dollar)%N || (c =? c_excl)%N || is_word u c || (c =? c_colon)%N.
Definition m_reference (u : unicode) : matcher := fun s =>
  match span (ref_char u) s with
  | ([], _) => None
  | (a, c :: r) => if (c =? c_dot)%N then Some (a ++ [c], r) else Some (a, c :: r)
  | (a, []) => Some (a, [])
  end.

(** ast_lexer/mod.rs 32-53, with the patterns of token_library.rs 39-59 *)
Definition matchers_ordered (u : unicode) : list (token * matcher) :=
  [ (TNewline, m_newline);
    (TComment, m_comment);
    (TDoubleQuotedString, m_dq);
    (TFunctionDefinition, m_fn);
    (TUseModule, m_lit (lit "use"));
    (TVarAssign, m_lit (lit ":="));
    (TComma, m_lit (lit ","));
    (TCloseParen, m_lit (lit ")"));
    (TOpenParen, m_lit (lit "("));
    (TOperator, m_operator);
    (TCodeSectionEof, m_lit (lit "---"));
    (TFloat, m_float u);
    (TInteger, m_integer u);
    (TBoolean, m_lit (lit "true"));
    (TBoolean, m_lit (lit "false"));
    (TReference, m_reference u) ].

(** the first matcher that matches (ast_lexer/mod.rs 76-108) *)
Fixpoint first_match (ms : list (token * matcher)) (s : str) : option (token * str * str) :=
  match ms with
  | [] => None
  | (t, m) :: ms' => match m s with
                     | Some (a, r) => Some (t, a, r)
                     | None => first_match ms' s
                     end
  end.

(** ast_lexer/token_match.rs 10-17 (the source code and field it carries are in the caller) *)
Record token_match := { tm_token : token; tm_str : str; tm_position : position }.

(** What the lexer yields: the tokens in order and the position of end of input
    (ast_lexer/mod.rs 19-26). *)
Record lexed := { lx_tokens : list token_match; lx_eof : position }.

(** ast_lexer/unknown_token.rs 7-12 *)
Record unknown_token := { ut_input : str; ut_position : position }.

(** ast_lexer/mod.rs 73-124. *)
Fixpoint lex_loop (fuel : nat) (u : unicode) (p : str) (off ln : nat) (acc : list token_match)
  : outcome unknown_token lexed :=
  match fuel with
  | 0 => NoFuel
  | S fuel' =>
      let (ws, body) := span is_blank p in
      match first_match (matchers_ordered u) body with
      | Some (t, m, rest) =>
          let full := ws ++ m in
          let tokm := {| tm_token := t; tm_str := trim full;
                         tm_position := {| line_number := ln; line_offset := off + length ws |} |} in
          let '(acc', off', ln') :=
            match t with
            | TNewline => (acc, 0, S ln)
            | TComment => (acc, off + utf8_len full, ln)
            | _ => (tokm :: acc, off + utf8_len full, ln)
            end in
          if forallb is_ws rest
          then Ok {| lx_tokens := rev acc'; lx_eof := {| line_number := ln'; line_offset := off' |} |}
          else lex_loop fuel' u rest off' ln' acc'
      | None =>
          if forallb is_ws p
          then Ok {| lx_tokens := rev acc; lx_eof := {| line_number := ln; line_offset := off |} |}
          else Err {| ut_input := p; ut_position := {| line_number := ln; line_offset := off |} |}
      end
  end.

(** ast_lexer/mod.rs 56-135 [AstLexer::new]; one leading '=' is skipped (66-71). *)
Definition ast_lex (u : unicode) (input : str) : outcome unknown_token lexed :=
  match strip_prefix [c_eq] input with
  | Some r => lex_loop (S (length r)) u r 1 0 []
  | None => lex_loop (S (length input)) u input 0 0 []
  end.
