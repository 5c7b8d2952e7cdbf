(** * Csvp: model of the csvp crate (/repo/csvp/src), the CSV reader.

    Simplifications: the Peekable char iterator is the list of remaining chars; [isize]/[usize]
    counters are unbounded ([Z]/[nat]); Rust's call stack depth is not modelled (the two field
    functions recurse once per character). *)
From Verif Require Import Base.

(** csvp/src/config.rs:4-8 [Config] *)
Record config := { separator : char; lines_above : nat }.

(** csvp/src/config.rs:10-17 [Config::default] *)
Definition default_config : config := {| separator := c_comma; lines_above := 0 |}.

(** csvp/src/source_position.rs:4-8 [SourcePosition] *)
Record position := { line_number : nat; line_offset : nat }.

(** a1::Address as used by csvp: (column, row), both 0-based. *)
Record address := { addr_x : nat; addr_y : nat }.

(** csvp/src/field.rs:3-15 [Field] *)
Record field := { f_address : address; f_value : str; f_positions : list position }.

(** csvp/src/field.rs:17-39 [Field::position_for_offset] *)
Definition position_for_offset (f : field) (offset : nat) : option position :=
  if length (f_positions f) <=? offset then None else nth_error (f_positions f) offset.

(** csvp/src/field.rs:32-39 [Field::eof_position] *)
Definition eof_position (f : field) : option position :=
  match rev (f_positions f) with
  | [] => None
  | p :: _ => Some {| line_number := line_number p; line_offset := line_offset p + 1 |}
  end.

(** csvp/src/field_builder.rs:3-8 [FieldBuilder] *)
Record field_builder := { fb_address : address; fb_value : str; fb_positions : list position }.

(** csvp/src/field_builder.rs:20-27 [FieldBuilder::new] *)
Definition fb_new (a : address) : field_builder :=
  {| fb_address := a; fb_value := []; fb_positions := [] |}.

(** csvp/src/field_builder.rs:10-18 [From<FieldBuilder> for Field] *)
Definition fb_build (fb : field_builder) : field :=
  {| f_address := fb_address fb; f_value := trim (fb_value fb); f_positions := fb_positions fb |}.

(** The [source_line] and [source_offset] counters of csvp/src/parser.rs:23-29 [Parser] *)
Record cursor := { cur_line : nat; cur_off : Z }.

(** csvp/src/parser.rs:70-78 [Parser::new] *)
Definition cursor_init : cursor := {| cur_line := 0; cur_off := (-1)%Z |}.

(** csvp/src/parser.rs:65-67 [is_record_terminator] *)
Definition is_record_terminator (c : char) : bool := (c =? c_nl)%N.

(** csvp/src/parser.rs:247-259 [consume_char]: effect of consuming [c] on the counters *)
Definition advance (c : char) (k : cursor) : cursor :=
  if is_record_terminator c then {| cur_line := S (cur_line k); cur_off := 0 |}
  else {| cur_line := cur_line k; cur_off := cur_off k + 1 |}.

(** csvp/src/parser.rs:55-63 [From<&mut Parser> for SourcePosition]; [None] is the panic. *)
Definition cursor_position (cfg : config) (k : cursor) : option position :=
  if (cur_off k <? 0)%Z then None
  else Some {| line_number := cur_line k + lines_above cfg; line_offset := Z.to_nat (cur_off k) |}.

(** The two messages of csvp/src/parser.rs:205 and 238-240 *)
Inductive csvp_message :=
| ExpectedQuotedCharacterGotEof
| InvalidTrailingCharacter (c : char).

(** csvp/src/error.rs:5-12 [Error::ParseError] *)
Record csvp_error := { bad_input : str; message : csvp_message; err_position : position }.

(** csvp/src/parser.rs:261-267 [parse_error]; [rest] are the unconsumed chars *)
Definition parse_error {A} (cfg : config) (m : csvp_message) (k : cursor) (rest : str)
  : outcome csvp_error A :=
  match cursor_position cfg k with
  | None => Panic
  | Some p => Err {| bad_input := firstn 10 rest; message := m; err_position := p |}
  end.

(** csvp/src/field_builder.rs:29-32 [FieldBuilder::push] applied to the parser's position *)
Definition fb_push (cfg : config) (fb : field_builder) (c : char) (k : cursor)
  : outcome csvp_error field_builder :=
  match cursor_position cfg k with
  | None => Panic
  | Some p => Ok {| fb_address := fb_address fb;
                    fb_value := fb_value fb ++ [c];
                    fb_positions := fb_positions fb ++ [p] |}
  end.

(** csvp/src/parser.rs:31-36 [FieldResult] *)
Inductive field_result :=
| FSome (f : field)
| FLast (f : field)
| FEof.

(** Result of a parser method: its value, the counters and the remaining chars. *)
Definition step (A : Type) := outcome csvp_error (A * cursor * str).

(** csvp/src/parser.rs:176-191 [parse_unquoted_field] *)
Fixpoint parse_unquoted (cfg : config) (fb : field_builder) (k : cursor) (s : str)
  : step field_result :=
  match s with
  | [] => Ok (FLast (fb_build fb), k, [])
  | c :: r =>
      let k1 := advance c k in
      let continue_ :=
        if (c =? separator cfg)%N then Ok (FSome (fb_build fb), k1, r)
        else if is_record_terminator c then Ok (FLast (fb_build fb), k1, r)
        else do fb' <- fb_push cfg fb c k1; parse_unquoted cfg fb' k1 r in
      if (c =? c_backslash)%N then
        match r with
        | n :: r' => if (n =? c_nl)%N then parse_unquoted cfg fb (advance n k1) r' else continue_
        | [] => continue_
        end
      else continue_
  end.

(** csvp/src/parser.rs:231-245 [parse_rest_of_quoted_field] *)
Fixpoint parse_rest_of_quoted (cfg : config) (fb : field_builder) (k : cursor) (s : str)
  : step field_result :=
  match s with
  | [] => Ok (FLast (fb_build fb), k, [])
  | c :: r =>
      let k1 := advance c k in
      if is_ws c then parse_rest_of_quoted cfg fb k1 r
      else if (c =? separator cfg)%N then Ok (FSome (fb_build fb), k1, r)
      else parse_error cfg (InvalidTrailingCharacter c) k1 r
  end.

(** csvp/src/parser.rs:193-226 [parse_quoted_field] *)
Fixpoint parse_quoted (cfg : config) (fb : field_builder) (escape_mode : bool) (k : cursor)
  (s : str) : step field_result :=
  match s with
  | [] =>
      if escape_mode then parse_error cfg ExpectedQuotedCharacterGotEof k []
      else Ok (FSome (fb_build fb), k, [])
  | c :: r =>
      let k1 := advance c k in
      if escape_mode then
        do fb' <- fb_push cfg fb c k1; parse_quoted cfg fb' false k1 r
      else if (c =? c_dquote)%N then
        match r with
        | q :: _ => if (q =? c_dquote)%N then parse_quoted cfg fb true k1 r
                    else parse_rest_of_quoted cfg fb k1 r
        | [] => parse_rest_of_quoted cfg fb k1 r
        end
      else do fb' <- fb_push cfg fb c k1; parse_quoted cfg fb' false k1 r
  end.

(** csvp/src/parser.rs:145-174 [parse_field] with [consume_whitespace] inlined: the function
    starts by skipping white space other than the newline, which here is the first branch. *)
Fixpoint parse_field (cfg : config) (fb : field_builder) (k : cursor) (s : str)
  : step field_result :=
  match s with
  | [] => Ok (FEof, k, [])
  | c :: r =>
      let k1 := advance c k in
      if negb (is_record_terminator c) && is_ws c then parse_field cfg fb k1 r
      else if (c =? separator cfg)%N then Ok (FSome (fb_build fb), k1, r)
      else if is_record_terminator c then Ok (FLast (fb_build fb), k1, r)
      else
        let continue_ :=
          if (c =? c_dquote)%N then parse_quoted cfg fb false k1 r
          else do fb' <- fb_push cfg fb c k1; parse_unquoted cfg fb' k1 r in
        if (c =? c_backslash)%N then
          match r with
          | n :: r' => if (n =? c_nl)%N then parse_field cfg fb (advance n k1) r' else continue_
          | [] => continue_
          end
        else continue_
  end.

(** csvp/src/parser.rs:48-53 [RecordResult] *)
Inductive record_result :=
| RComment
| REof
| RSome (r : list field).

(** csvp/src/parser.rs:103-110 [consume_and_ignore_line] *)
Fixpoint ignore_line (k : cursor) (s : str) : cursor * str :=
  match s with
  | [] => (k, [])
  | c :: r => let k1 := advance c k in
              if (c =? c_nl)%N then (k1, r) else ignore_line k1 r
  end.

(** csvp/src/parser.rs:122-142, the loop of [parse_record] *)
Fixpoint parse_fields (fuel : nat) (cfg : config) (row col : nat) (fields : list field)
  (k : cursor) (s : str) : step record_result :=
  match fuel with
  | O => NoFuel
  | S fuel' =>
      do (fr, k', s') <- parse_field cfg (fb_new {| addr_x := col; addr_y := row |}) k s;
      match fr with
      | FSome f => parse_fields fuel' cfg row (S col) (fields ++ [f]) k' s'
      | FLast f => Ok (RSome (fields ++ [f]), k', s')
      | FEof => Ok (match fields with [] => REof | _ => RSome fields end, k', s')
      end
  end.

(** csvp/src/parser.rs:116-143 [parse_record] *)
Definition parse_record (cfg : config) (row : nat) (k : cursor) (s : str) : step record_result :=
  match s with
  | c :: _ =>
      if (c =? c_hash)%N then let (k', s') := ignore_line k s in Ok (RComment, k', s')
      else parse_fields (S (length s)) cfg row 0 [] k s
  | [] => parse_fields (S (length s)) cfg row 0 [] k s
  end.

(** csvp/src/parser.rs:85-96, the loop of [parse] *)
Fixpoint parse_records (fuel : nat) (cfg : config) (row : nat) (records : list (list field))
  (k : cursor) (s : str) : outcome csvp_error (list (list field)) :=
  match fuel with
  | O => NoFuel
  | S fuel' =>
      do (rr, k', s') <- parse_record cfg row k s;
      match rr with
      | RComment => parse_records fuel' cfg row records k' s'
      | RSome r => parse_records fuel' cfg (S row) (records ++ [r]) k' s'
      | REof => Ok records
      end
  end.

(** csvp/src/parser.rs:81-83: skip leading newlines *)
Fixpoint skip_newlines (k : cursor) (s : str) : cursor * str :=
  match s with
  | c :: r => if (c =? c_nl)%N then skip_newlines (advance c k) r else (k, s)
  | [] => (k, [])
  end.

(** csvp/src/parser.rs:80-97, 275-277 [parse] *)
Definition csvp_parse (cfg : config) (input : str) : outcome csvp_error (list (list field)) :=
  let (k, s) := skip_newlines cursor_init input in
  parse_records (S (length s)) cfg 0 [] k s.

(** What a caller sees when it ignores the source map: the table of values. *)
Definition values (rs : list (list field)) : list (list str) := map (map f_value) rs.
