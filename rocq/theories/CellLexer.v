(** * CellLexer: model of src/parser/cell_lexer. *)
From Verif Require Import Base Csvp Ast AstLexer AstParser Options.

(** cell_lexer/token.rs 6-22: the kinds that matter after lexing *)
Inductive ckind := KA1 | KColor | KDate | KIdentifier | KNumber | KOptionName | KPositiveNumber | KString | KOther.
(** cell_lexer/token_match.rs 12-18; the field and source code it carries are in the caller *)
Record ctoken := { ct_kind : ckind; ct_text : str; ct_offset : nat }.
(** cell_lexer/mod.rs 22-28: what is left of the field and how many bytes were consumed *)
Record clexer := { cl_input : str; cl_offset : nat }.

(** The messages of the lexer and the parser of options, with what fills their gaps: the [format!]s of cell_lexer/mod.rs 157, 218, 236, 249,
    300, 309, 330, cell_parser/mod.rs 87, 93, 146, 152, 182, 265, cell_parser/validate.rs 246, 263, cell_lexer/token_match.rs 25, 31,
    rgb/try_from.rs 43, 47, date_time/try_from.rs 50, ast/node.rs 98-105 and error/cell_parse_error.rs 33-60 (an option, and the values
    that are possible). The standard library's part of a message is not modelled, and for colours neither is the character named. *)
Inductive cell_message :=
| MExpected (text : str)
| MExpectedA (k : ckind)
| MExpectedDate | MExpectedQuote | MUnterminatedQuote | MExpectedListItem
| MColorCharacter
| MInvalidValue (option_name : str) (possible : list str)
| MRowOptionsPlace | MOptionsTwice | MFillPlace | MUnknownOption
| MFillAmount | MFontSize | MInteger | MFloat | MDate | MColor | MText | MRange.
(** error/parse_error.rs 8-30: the offending text as it is shown, the message and the position (the highlighted lines are in Report.v) *)
Record cell_error := { ce_input : str; ce_message : cell_message; ce_position : position }.

(** source_code/errors.rs 53-67 with the [position] of token_match.rs 41-56 and unknown_token.rs
    22-37: an offset without a recorded position is a [compiler_error], i.e. a panic *)
Definition report {A} (f : field) (what : str * cell_message) (offset : nat) : outcome cell_error A :=
  match position_for_offset f offset with
  | Some p => Err {| ce_input := fst what; ce_message := snd what; ce_position := p |}
  | None => Panic
  end.
(** cell_lexer/mod.rs 337-340 *)
Definition current_offset (l : clexer) : nat := cl_offset l - 1.
(** cell_lexer/mod.rs 176-184, unknown_token.rs 16-20 *)
Definition unknown_string {A} (f : field) (l : clexer) (m : cell_message) : outcome cell_error A :=
  report f (lit "unrecognized token `" ++ cl_input l ++ lit "`", m) (current_offset l).
(** token_match.rs 35-44 *)
Definition token_error {A} (f : field) (t : ctoken) (m : cell_message) : outcome cell_error A :=
  report f (lit "`" ++ ct_text t ++ lit "`", m) (ct_offset t).
(** cell_lexer/mod.rs 166-174 *)
Definition match_token (l : clexer) (k : ckind) (s : str) : ctoken :=
  {| ct_kind := k; ct_text := s; ct_offset := current_offset l |}.

(** cell_lexer/mod.rs 342-345: the amount is a number of bytes *)
Definition move_input {E} (l : clexer) (n : nat) : outcome E clexer :=
  match byte_split n (cl_input l) with
  | Some (_, r) => Ok {| cl_input := r; cl_offset := cl_offset l + n |}
  | None => Panic
  end.
(** cell_lexer/mod.rs 161-164: moves by the byte length of the leading white space, so it never
    splits a character *)
Definition take_whitespace (l : clexer) : clexer :=
  {| cl_input := trim_start (cl_input l);
     cl_offset := cl_offset l + (utf8_len (cl_input l) - utf8_len (trim_start (cl_input l))) |}.

(** cell_lexer/mod.rs 186-196 [maybe_take] (the token itself is never used) *)
Definition maybe_take (l : clexer) (sub : str) : option clexer * clexer :=
  let l := take_whitespace l in
  match strip_prefix sub (cl_input l) with
  | Some r => (Some {| cl_input := r; cl_offset := cl_offset l + utf8_len sub |}, l)
  | None => (None, l)
  end.
(** cell_lexer/mod.rs 210-220 [take] *)
Definition take (f : field) (l : clexer) (sub : str) : outcome cell_error clexer :=
  let l := take_whitespace l in
  match strip_prefix sub (cl_input l) with
  | Some r => Ok {| cl_input := r; cl_offset := cl_offset l + utf8_len sub |}
  | None => unknown_string f l (MExpected sub)
  end.

(** cell_lexer/mod.rs 313-335 [take_while]; the token is built after moving *)
Definition take_while (f : field) (l : clexer) (k : ckind) (p : char -> bool)
  : outcome cell_error (ctoken * clexer) :=
  let l := take_whitespace l in
  let (m, _) := span p (cl_input l) in
  match m with
  | [] => unknown_string f l (MExpectedA k)
  | _ => do l' <- move_input l (utf8_len m); Ok (match_token l' k m, l')
  end.

(** cell_lexer/mod.rs 229-252: [None] is either of the two errors. [n] is [matched_alphas]. *)
Fixpoint color_loop (u : unicode) (s : str) (n : nat) (saw_hash : bool) : option str :=
  match s with
  | [] => Some []
  | c :: r =>
      if (c =? c_hash)%N && negb saw_hash
      then option_map (cons c) (color_loop u r n true)
      else if is_alnum u c
      then if 6 <? n then None else option_map (cons c) (color_loop u r (S n) saw_hash)
      else if (n =? 3) || (n =? 6) then Some [] else None
  end.
(** cell_lexer/mod.rs 222-257 *)
Definition take_color (co : cell_oracle) (f : field) (l : clexer) : outcome cell_error (ctoken * clexer) :=
  let l := take_whitespace l in
  match color_loop (co_unicode co) (cl_input l) 0 false with
  | None => unknown_string f l MColorCharacter
  | Some m => do l' <- move_input l (utf8_len m); Ok (match_token l KColor m, l')
  end.

(** cell_lexer/mod.rs 285-296, after the opening quote: the text and the number of characters
    consumed (not counting the opening quote), or [None] when the input ends *)
Fixpoint quoted_loop (s : str) (escape : bool) : option (str * nat) :=
  match s with
  | [] => None
  | c :: r =>
      let push x := option_map (fun '(m, n) => (c :: m, S n)) x in
      let skip x := option_map (fun '(m, n) => (m, S n)) x in
      if escape then push (quoted_loop r false)
      else if (c =? c_backslash)%N then skip (quoted_loop r true)
      else if (c =? c_squote)%N then Some ([], 1)
      else push (quoted_loop r false)
  end.
(** cell_lexer/mod.rs 269-311; [consumed] counts characters but [move_input] takes bytes *)
Definition take_single_quoted_string (f : field) (l : clexer) : outcome cell_error (ctoken * clexer) :=
  let l := take_whitespace l in
  match cl_input l with
  | c :: r =>
      if (c =? c_squote)%N then
        match quoted_loop r false with
        | Some (m, n) => do l' <- move_input l (S n); Ok (match_token l KString m, l')
        | None => unknown_string f l MUnterminatedQuote
        end
      else unknown_string f l MExpectedQuote
  | [] => unknown_string f l MUnterminatedQuote
  end.
(** cell_lexer/mod.rs 259-267 *)
Definition take_string (co : cell_oracle) (f : field) (l : clexer) : outcome cell_error (ctoken * clexer) :=
  let l := take_whitespace l in
  match cl_input l with
  | c :: _ => if (c =? c_squote)%N then take_single_quoted_string f l
              else take_while f l KString (is_alnum (co_unicode co))
  | [] => take_while f l KString (is_alnum (co_unicode co))
  end.

(** ** The regular expressions of cell_lexer/token_library.rs 27-36, after the blanks of
    token_matcher.rs 27 have been skipped *)
(** exactly [n] digits *)
Fixpoint m_digits (u : unicode) (n : nat) (s : str) : option (str * str) :=
  match n, s with
  | 0, _ => Some ([], s)
  | S n', c :: r => if is_digit u c
                    then match m_digits u n' r with Some (a, b) => Some (c :: a, b) | None => None end
                    else None
  | S _, [] => None
  end.
(** between [lo] and [hi] digits, as many as possible *)
Fixpoint m_digits_up_to (u : unicode) (hi : nat) (s : str) : str * str :=
  match hi, s with
  | S h, c :: r => if is_digit u c then let (a, b) := m_digits_up_to u h r in (c :: a, b) else ([], s)
  | _, _ => ([], s)
  end.
Definition m_seq (a b : matcher) : matcher := fun s =>
  match a s with
  | Some (x, r) => match b r with Some (y, r2) => Some (x ++ y, r2) | None => None end
  | None => None
  end.
Definition m_range (u : unicode) (lo hi : nat) : matcher := fun s =>
  let (a, r) := m_digits_up_to u hi s in if length a <? lo then None else Some (a, r).
(** token_library.rs 29-32: dddd-dd-dd, otherwise d{1,2}/d{1,2}/d{2,4}; a digit run longer than two
    cannot be followed by a slash after backtracking, so taking as many as possible is exact *)
Definition m_iso_date (u : unicode) : matcher :=
  m_seq (m_digits u 4) (m_seq (m_lit [c_minus]) (m_seq (m_digits u 2) (m_seq (m_lit [c_minus]) (m_digits u 2)))).
Definition m_us_date (u : unicode) : matcher :=
  m_seq (m_range u 1 2) (m_seq (m_lit [c_slash]) (m_seq (m_range u 1 2) (m_seq (m_lit [c_slash]) (m_range u 2 4)))).
Definition m_date (u : unicode) : matcher := fun s =>
  match m_iso_date u s with Some x => Some x | None => m_us_date u s end.
(** token_library.rs 33 *)
Definition m_identifier (u : unicode) : matcher := m_plus (is_word u).
(** token_library.rs 34: -?\d+(\.\d+)? *)
Definition m_number (u : unicode) : matcher := fun s =>
  let (sg, s1) := match s with c :: r => if (c =? c_minus)%N then ([c], r) else ([], s) | [] => ([], s) end in
  match span (is_digit u) s1 with
  | ([], _) => None
  | (a, r) =>
      match m_seq (m_lit [c_dot]) (m_plus (is_digit u)) r with
      | Some (b, r2) => Some (sg ++ a ++ b, r2)
      | None => Some (sg ++ a, r)
      end
  end.
(** token_library.rs 35: whether '(?:''|[^'])*' matches at all, i.e. whether a second quote follows *)
Definition has_quoted (s : str) : bool :=
  match s with
  | c :: r => (c =? c_squote)%N && existsb (fun x => (x =? c_squote)%N) r
  | [] => false
  end.

(** cell_lexer/mod.rs 198-208 and 145-159: the leading blanks are counted in characters but skipped
    as bytes *)
Definition maybe_take_regex (l : clexer) (k : ckind) (m : matcher) : outcome cell_error (option (ctoken * clexer)) :=
  let (ws, body) := span is_blank (cl_input l) in
  match m body with
  | Some (a, _) =>
      let text := trim (ws ++ a) in
      do l1 <- move_input l (length ws);
      let t := match_token l1 k text in
      do l2 <- move_input l1 (utf8_len text);
      Ok (Some (t, l2))
  | None => Ok None
  end.
(** cell_lexer/mod.rs 145-159 *)
Definition take_date (co : cell_oracle) (f : field) (l : clexer) : outcome cell_error (ctoken * clexer) :=
  let l := take_whitespace l in
  do r <- maybe_take_regex l KDate (m_date (co_unicode co));
  match r with Some x => Ok x | None => unknown_string f l MExpectedDate end.
(** cell_lexer/mod.rs 85-98; the caller drops an error ([unwrap_or(None)], validate.rs 238) but not a
    panic *)
Definition maybe_take_single_quoted_string (f : field) (l : clexer)
  : outcome cell_error (option (ctoken * clexer)) :=
  let (_, body) := span is_blank (cl_input l) in
  if has_quoted body then
    match take_single_quoted_string f l with
    | Ok x => Ok (Some x)
    | Err _ => Ok None
    | Panic => Panic
    | NoFuel => NoFuel
    end
  else Ok None.
(** cell_lexer/mod.rs 108-114 *)
Definition peek_close_parenthesis (l : clexer) : bool :=
  let (_, body) := span is_blank (cl_input l) in starts_with (lit ")") body.

(** ** [take_token], cell_lexer/mod.rs 116-143: one definition per token kind that takes text *)
Definition is_a1_char (u : unicode) (c : char) : bool :=
  is_alnum u c || (c =? c_excl)%N || (c =? c_squote)%N || (c =? c_colon)%N || (c =? c_dollar)%N.
Definition take_a1 co f l := take_while f l KA1 (is_a1_char (co_unicode co)).
Definition take_option_name co f l := take_while f l KOptionName (is_alnum (co_unicode co)).
Definition take_identifier co f l :=
  take_while f l KIdentifier (fun c => is_alnum (co_unicode co) c || (c =? c_underscore)%N).
Definition take_number f l :=
  take_while f l KNumber (fun c => is_ascii_digit c || (c =? c_minus)%N || (c =? c_dot)%N).
Definition take_positive_number f l := take_while f l KPositiveNumber is_ascii_digit.
(** cell_lexer/mod.rs 64-67 *)
Definition take_option_right_side co f l : outcome cell_error (ctoken * clexer) :=
  do l <- take f l [c_eq]; take_identifier co f l.

(** cell_lexer/mod.rs 46-60: which start was taken *)
Inductive start_token := StartCell | StartRow.
Definition maybe_take_start_options (l : clexer) : option (start_token * ctoken * clexer) * clexer :=
  let l := take_whitespace l in
  match strip_prefix (lit "[[") (cl_input l) with
  | Some r => (Some (StartCell, match_token l KOther (lit "[["), {| cl_input := r; cl_offset := cl_offset l + 2 |}), l)
  | None =>
      match strip_prefix (lit "![[") (cl_input l) with
      | Some r => (Some (StartRow, match_token l KOther (lit "![["), {| cl_input := r; cl_offset := cl_offset l + 3 |}), l)
      | None => (None, l)
      end
  end.
(** cell_lexer/mod.rs 41-44 *)
Definition rest (l : clexer) : str := trim (cl_input l).
