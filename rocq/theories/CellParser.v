(** * CellParser: model of src/parser/cell_parser, src/cell/mod.rs and src/row/mod.rs (parsing).

    Each [..._option] function of the Rust parser reads a value and assigns it to the row or to the
    cell. The model splits this in two: [parse_option] reads one option and yields it as a value of
    type [opt]; [assign] performs the assignment. The order of effects is the same, because Rust
    evaluates the value before it assigns. *)
From Verif Require Import Base Csvp Ast AstLexer AstParser Options CellLexer.

(** One parsed option. *)
Inductive opt :=
| OBorder (s : border_side) | OBorderColor (c : rgb) | OBorderStyle (s : border_style) | OColor (c : rgb)
| OValidate (d : data_validation) | OFill (amount : option nat) | OFontColor (c : rgb)
| OFontFamily (s : str) | OFontSize (n : nat) | OHalign (a : horizontal_align) | OLock | ONote (s : str)
| ONumberFormat (n : number_format) | OText (t : text_format) | OVar (s : str) | OValign (a : vertical_align)
| OWrap (w : text_wrap).

Definition parser A := field -> clexer -> outcome cell_error (A * clexer).

(** [str::parse::<i64>] of a lexeme made of digits, minus signs and dots *)
Definition parse_signed (s : str) : option Z :=
  match s with
  | c :: r =>
      if (c =? c_minus)%N
      then if all_digits r
           then let v := digits_value r in
                if (v <=? I64_MAX + 1)%N then Some (- Z.of_N v)%Z else None
           else None
      else parse_i64 s
  | [] => None
  end.
(** [parse::<usize>] and [parse::<u8>] of a string of ASCII digits *)
Definition USIZE_MAX : N := 18446744073709551615%N.
Definition parse_unsigned (max : N) (s : str) : option nat :=
  if all_digits s then let v := digits_value s in if (v <=? max)%N then Some (N.to_nat v) else None else None.

(** error when a value is not recognised: error/cell_parse_error.rs 48-60 uses the token's position *)
Definition or_error {A} (f : field) (t : ctoken) (m : cell_message) (x : option A) : outcome cell_error A :=
  match x with Some a => Ok a | None => token_error f t m end.
(** rgb/try_from.rs 34-52 *)
Definition rgb_of_token (f : field) (t : ctoken) : outcome cell_error rgb :=
  match parse_rgb (ct_text t) with
  | Ok c => Ok c
  | Err _ => token_error f t MColor
  | Panic => Panic
  | NoFuel => NoFuel
  end.

(** ** validate.rs *)
(** token_match.rs 21-26 *)
Definition into_number (f : field) (t : ctoken) : outcome cell_error Z := or_error f t MInteger (parse_signed (ct_text t)).
(** date_time/try_from.rs 30-51, 61-67 *)
Definition into_date (co : cell_oracle) (f : field) (t : ctoken) : outcome cell_error str :=
  or_error f t MDate (date_canon co (ct_text t)).
(** token_match.rs 67-88 *)
Definition ast_of_ctoken (co : cell_oracle) (f : field) (t : ctoken) : outcome cell_error node :=
  match ct_kind t with
  | KDate => do d <- into_date co f t; Ok (NDate d)
  | KA1 | KIdentifier => Ok (NRef (ct_text t))
  | KString => match text_unquote (ct_text t) with inr s => Ok (NText s) | inl _ => token_error f t MText end
  | KNumber | KPositiveNumber =>
      if existsb (fun c => (c =? c_dot)%N) (ct_text t)
      then do v <- or_error f t MFloat (f64_canon (co_oracle co) (ct_text t)); Ok (NFloat false None v)
      else do v <- into_number f t; Ok (NInt false None v)
  | KColor | KOptionName | KOther => Panic
  end.
(** validate.rs 269-273: the conversion's result is inspected after the closing parenthesis *)
Definition one_in_parens {A} (tk : field -> clexer -> outcome cell_error (ctoken * clexer))
  (conv : field -> ctoken -> outcome cell_error A) : parser A := fun f l =>
  do l <- take f l (lit "(");
  do (t, l) <- tk f l;
  match conv f t with
  | Panic => Panic
  | NoFuel => NoFuel
  | r => do l <- take f l (lit ")"); do v <- r; Ok (v, l)
  end.
(** validate.rs 275-282 and 290-297: both conversions fail at once *)
Definition two_in_parens {A} (tk : field -> clexer -> outcome cell_error (ctoken * clexer))
  (conv : field -> ctoken -> outcome cell_error A) : parser (A * A) := fun f l =>
  do l <- take f l (lit "(");
  do (t, l) <- tk f l;
  do a <- conv f t;
  do (t, l) <- tk f l;
  do b <- conv f t;
  do l <- take f l (lit ")");
  Ok ((a, b), l).
Definition one_date co : parser str := one_in_parens (take_date co) (into_date co).
Definition two_dates co : parser (str * str) := two_in_parens (take_date co) (into_date co).
Definition one_number : parser Z := one_in_parens take_number into_number.
Definition two_numbers : parser (Z * Z) := two_in_parens take_number into_number.
(** validate.rs 299-303 *)
Definition one_string co : parser str := one_in_parens (take_string co) (fun _ t => Ok (ct_text t)).
(** validate.rs 234-239 *)
Definition in_list_token (co : cell_oracle) (f : field) (l : clexer)
  : outcome cell_error (option (ctoken * clexer)) :=
  let u := co_unicode co in
  do r <- maybe_take_regex l KDate (m_date u);
  match r with
  | Some x => Ok (Some x)
  | None =>
      do r <- maybe_take_regex l KNumber (m_number u);
      match r with
      | Some x => Ok (Some x)
      | None =>
          do r <- maybe_take_single_quoted_string f l;
          match r with
          | Some x => Ok (Some x)
          | None => maybe_take_regex l KIdentifier (m_identifier u)
          end
      end
  end.
(** validate.rs 223-252 *)
Fixpoint in_list_loop (fuel : nat) (co : cell_oracle) (f : field) (l : clexer) (acc : list node)
  : outcome cell_error (list node * clexer) :=
  match fuel with
  | 0 => NoFuel
  | S n =>
      do r <- in_list_token co f l;
      match r with
      | Some (t, l) =>
          do a <- ast_of_ctoken co f t;
          if peek_close_parenthesis l then Ok (acc ++ [a], l)
          else in_list_loop n co f l (acc ++ [a])
      | None => unknown_string f l MExpectedListItem
      end
  end.
(** validate.rs 221-256 *)
Definition in_list co : parser (list node) := fun f l =>
  do l <- take f l (lit "(");
  do (vs, l) <- in_list_loop (S (length (cl_input l))) co f l [];
  do l <- take f l (lit ")");
  Ok (vs, l).
(** validate.rs 258-267 *)
Definition in_range co : parser str := fun f l =>
  do l <- take f l (lit "(");
  do (t, l) <- take_a1 co f l;
  do a <- or_error f t MRange (a1_canon co (ct_text t));
  do l <- take f l (lit ")");
  Ok (a, l).

(** the names of validate.rs 34-62 *)
Inductive vkind :=
| VKCustom | VKDateAfter | VKDateBefore | VKDateBetween | VKDateEqualTo | VKInList | VKInRange | VKDateIsValid
| VKEmail | VKUrl | VKDateNotBetween | VKDateOnOrAfter | VKDateOnOrBefore | VKNumBetween | VKNumEq | VKNumGt
| VKNumGte | VKNumLt | VKNumLte | VKNumNotBetween | VKNumNeq | VKTextContains | VKTextNotContain | VKTextEq.
Definition vkind_of (s : str) : option vkind :=
  match_str s
  [([lit "c"; lit "custom"], VKCustom); ([lit "date_gt"; lit "date_after"], VKDateAfter);
   ([lit "date_lt"; lit "date_before"], VKDateBefore); ([lit "date_btwn"; lit "date_between"], VKDateBetween);
   ([lit "date_eq"; lit "date_equal_to"], VKDateEqualTo); ([lit "in_list"], VKInList); ([lit "in_range"], VKInRange);
   ([lit "is_date"; lit "date_is_valid"], VKDateIsValid); ([lit "is_email"; lit "is_valid_email"], VKEmail);
   ([lit "is_url"; lit "is_valid_url"], VKUrl); ([lit "date_nbtwn"; lit "date_not_between"], VKDateNotBetween);
   ([lit "date_gte"; lit "date_on_or_after"], VKDateOnOrAfter); ([lit "date_lte"; lit "date_on_or_before"], VKDateOnOrBefore);
   ([lit "num_btwn"; lit "number_between"], VKNumBetween); ([lit "num_eq"; lit "number_equal_to"], VKNumEq);
   ([lit "num_gt"; lit "number_greater_than"], VKNumGt); ([lit "num_gte"; lit "number_greater_than_or_equal_to"], VKNumGte);
   ([lit "num_lt"; lit "number_less_than"], VKNumLt); ([lit "num_lte"; lit "number_less_than_or_equal_to"], VKNumLte);
   ([lit "num_nbtwn"; lit "number_not_between"], VKNumNotBetween); ([lit "num_neq"; lit "number_not_equal_to"], VKNumNeq);
   ([lit "text_contains"], VKTextContains); ([lit "text_does_not_contain"], VKTextNotContain);
   ([lit "text_eq"; lit "text_equal_to"], VKTextEq)].
(** validate.rs 97-267: the arguments each validation takes *)
Definition pmap {A B} (g : A -> B) (p : parser A) : parser B := fun f l => do (a, l) <- p f l; Ok (g a, l).
Definition pret {A} (a : A) : parser A := fun _ l => Ok (a, l).
Definition validation_args (co : cell_oracle) (k : vkind) : parser data_validation :=
  match k with
  | VKCustom => pmap DVCustom (one_string co)
  | VKDateAfter => pmap DVDateAfter (one_date co)
  | VKDateBefore => pmap DVDateBefore (one_date co)
  | VKDateBetween => pmap (fun '(a, b) => DVDateBetween a b) (two_dates co)
  | VKDateEqualTo => pmap DVDateEqualTo (one_date co)
  | VKInList => pmap DVValueInList (in_list co)
  | VKInRange => pmap DVValueInRange (in_range co)
  | VKDateIsValid => pret DVDateIsValid
  | VKEmail => pret DVTextIsValidEmail
  | VKUrl => pret DVTextIsValidUrl
  | VKDateNotBetween => pmap (fun '(a, b) => DVDateNotBetween a b) (two_dates co)
  | VKDateOnOrAfter => pmap DVDateOnOrAfter (one_date co)
  | VKDateOnOrBefore => pmap DVDateOnOrBefore (one_date co)
  | VKNumBetween => pmap (fun '(a, b) => DVNumberBetween a b) two_numbers
  | VKNumEq => pmap DVNumberEqualTo one_number
  | VKNumGt => pmap DVNumberGreaterThan one_number
  | VKNumGte => pmap DVNumberGreaterThanOrEqualTo one_number
  | VKNumLt => pmap DVNumberLessThan one_number
  | VKNumLte => pmap DVNumberLessThanOrEqualTo one_number
  | VKNumNotBetween => pmap (fun '(a, b) => DVNumberNotBetween a b) two_numbers
  | VKNumNeq => pmap DVNumberNotEqualTo one_number
  | VKTextContains => pmap DVTextContains (one_string co)
  | VKTextNotContain => pmap DVTextDoesNotContain (one_string co)
  | VKTextEq => pmap DVTextEqualTo (one_string co)
  end.
(** validate.rs 64-91 *)
Definition possible_validations : list str :=
  [lit "custom(FORMULA)"; lit "date_after(DATE)"; lit "date_before(DATE)"; lit "date_between(DATE DATE)"; lit "date_equal_to(DATE)";
   lit "date_is_valid"; lit "date_not_between(DATE DATE)"; lit "date_on_or_after(DATE)"; lit "date_on_or_before(DATE)";
   lit "number_between(NUMBER NUMBER)"; lit "number_equal_to(NUMBER)"; lit "number_greater_than_or_equal_to(NUMBER)";
   lit "number_greater_than(NUMBER)"; lit "number_less_than_or_equal_to(NUMBER)"; lit "number_less_than(NUMBER)";
   lit "number_not_between(NUMBER NUMBER)"; lit "number_not_equal_to(NUMBER)"; lit "text_contains(TEXT)"; lit "text_does_not_contain(TEXT)";
   lit "text_equal_to(TEXT)"; lit "text_is_valid_email"; lit "text_is_valid_url"; lit "value_in_list(ANY ...)"; lit "value_in_range(A1)"].
(** validate.rs 31-95 *)
Definition validate_option co : parser opt := fun f l =>
  do (t, l) <- take_option_right_side co f l;
  do k <- or_error f t (MInvalidValue (lit "validate") possible_validations) (vkind_of (to_lowercase co (ct_text t)));
  pmap OValidate (validation_args co k) f l.

(** ** cell_parser/mod.rs 118-243 *)
(** an option whose value is one word: lines 118-122, 131-135, 187-191, 211-227, 235-243 *)
Definition word_option {A} co (of : str -> option A) (m : cell_message) (mk : A -> opt) : parser opt := fun f l =>
  do (t, l) <- take_option_right_side co f l;
  do v <- or_error f t m (of (to_lowercase co (ct_text t)));
  Ok (mk v, l).
(** lines 124-129, 137-142, 163-168 *)
Definition color_option co (mk : rgb -> opt) : parser opt := fun f l =>
  do l <- take f l [c_eq];
  do (t, l) <- take_color co f l;
  do c <- rgb_of_token f t;
  Ok (mk c, l).
(** lines 170-175, 204-209 *)
Definition string_option co (mk : str -> opt) : parser opt := fun f l =>
  do l <- take f l [c_eq];
  do (t, l) <- take_string co f l;
  Ok (mk (ct_text t), l).
(** lines 177-185 *)
Definition font_size_option : parser opt := fun f l =>
  do l <- take f l [c_eq];
  do (t, l) <- take_positive_number f l;
  do n <- or_error f t MFontSize (parse_unsigned 255 (ct_text t));
  Ok (OFontSize n, l).
(** lines 144-161; [name] is the option's own token *)
Definition fill_option (is_row : bool) (name : ctoken) : parser opt := fun f l =>
  if negb is_row then token_error f name MFillPlace
  else match maybe_take l [c_eq] with
       | (Some l, _) =>
           do (t, l) <- take_positive_number f l;
           do n <- or_error f t MFillAmount (parse_unsigned USIZE_MAX (ct_text t));
           Ok (OFill (Some n), l)
       | (None, l) => Ok (OFill None, l)
       end.
(** lines 229-233 *)
Definition var_option co : parser opt := fun f l =>
  do (t, l) <- take_option_right_side co f l; Ok (OVar (ct_text t), l).

(** the names of lines 247-264 *)
Inductive okind :=
| KBorder | KBorderColor | KBorderStyle | KCellColor | KValidate | KFill | KFontColor | KFontFamily | KFontSize
| KHalign | KLock | KNote | KNumberFormat | KText | KVar | KValign | KWrap.
Definition okind_of (s : str) : option okind :=
  match_str s
  [([lit "b"; lit "border"], KBorder); ([lit "bc"; lit "bordercolor"], KBorderColor);
   ([lit "bs"; lit "borderstyle"], KBorderStyle); ([lit "c"; lit "color"], KCellColor);
   ([lit "dv"; lit "validate"], KValidate); ([lit "f"; lit "fill"], KFill);
   ([lit "fc"; lit "fontcolor"], KFontColor); ([lit "ff"; lit "fontfamily"], KFontFamily);
   ([lit "fs"; lit "fontsize"], KFontSize); ([lit "ha"; lit "halign"], KHalign); ([lit "l"; lit "lock"], KLock);
   ([lit "n"; lit "note"], KNote); ([lit "nf"; lit "numberformat"], KNumberFormat); ([lit "t"; lit "text"], KText);
   ([lit "v"; lit "var"], KVar); ([lit "va"; lit "valign"], KValign); ([lit "w"; lit "wrap"], KWrap)].
(** border_side.rs 27-31 *)
Definition border_side_error : cell_message := MInvalidValue (lit "border") [lit "all (a)"; lit "top (t)"; lit "bottom (b)"; lit "left (l)"; lit "right (r)"].
(** border_style.rs 28-39 *)
Definition border_style_error : cell_message :=
  MInvalidValue (lit "borderstyle")
    [lit "dashed (dash)"; lit "dotted (dot)"; lit "double (dbl)"; lit "solid (1)"; lit "solid_medium (2)"; lit "solid_thick (3)"].
(** horizontal_align.rs 21-25 *)
Definition horizontal_align_error : cell_message := MInvalidValue (lit "halign") [lit "center (c)"; lit "left (l)"; lit "right (r)"].
(** number_format.rs 31-44 *)
Definition number_format_error : cell_message :=
  MInvalidValue (lit "numberformat")
    [lit "currency (c)"; lit "date (d)"; lit "datetime (dt)"; lit "number (n)"; lit "percent (p)"; lit "text"; lit "time (t)"; lit "scientific (s)"].
(** text_format.rs 22-31 *)
Definition text_format_error : cell_message :=
  MInvalidValue (lit "text") [lit "bold (b)"; lit "italic (i)"; lit "strikethrough (s)"; lit "underline (u)"].
(** vertical_align.rs 22-26 *)
Definition vertical_align_error : cell_message := MInvalidValue (lit "valign") [lit "bottom (b)"; lit "center (c)"; lit "top (t)"].
(** text_wrap.rs 21-25 *)
Definition text_wrap_error : cell_message := MInvalidValue (lit "wrap") [lit "clip (c)"; lit "overflow (o)"; lit "wrap (w)"].
Definition option_value (co : cell_oracle) (is_row : bool) (k : okind) (name : ctoken) : parser opt :=
  match k with
  | KBorder => word_option co border_side_of border_side_error OBorder
  | KBorderColor => color_option co OBorderColor
  | KBorderStyle => word_option co border_style_of border_style_error OBorderStyle
  | KCellColor => color_option co OColor
  | KValidate => validate_option co
  | KFill => fill_option is_row name
  | KFontColor => color_option co OFontColor
  | KFontFamily => string_option co OFontFamily
  | KFontSize => font_size_option
  | KHalign => word_option co horizontal_align_of horizontal_align_error OHalign
  | KLock => pret OLock
  | KNote => string_option co ONote
  | KNumberFormat => word_option co number_format_of number_format_error ONumberFormat
  | KText => word_option co text_format_of text_format_error OText
  | KVar => var_option co
  | KValign => word_option co vertical_align_of vertical_align_error OValign
  | KWrap => word_option co text_wrap_of text_wrap_error OWrap
  end.
(** lines 245-267 [option] *)
Definition parse_option (co : cell_oracle) (is_row : bool) : parser opt := fun f l =>
  do (name, l) <- take_option_name co f l;
  do k <- or_error f name MUnknownOption (okind_of (ct_text name));
  option_value co is_row k name f l.

(** ** Assigning: the macros at lines 25-56, lock (193-202), wrap (235-243), validate.rs 16-28 *)
Definition set_option (o : opt) (x : options) : options :=
  match o with
  | OBorder v => insert_border v x
  | OBorderColor v => set_border_color v x
  | OBorderStyle v => set_border_style v x
  | OColor v => set_color v x
  | OValidate v => set_validation v x
  | OFontColor v => set_font_color v x
  | OFontFamily v => set_font_family v x
  | OFontSize v => set_font_size v x
  | OHalign v => set_horizontal_align v x
  | OLock => set_lock x
  | ONote v => set_note v x
  | ONumberFormat v => set_number_format v x
  | OText v => insert_text_format v x
  | OValign v => set_vertical_align v x
  | OWrap v => set_text_wrap v x
  | OFill _ | OVar _ => x
  end.
Definition assign_row (address_row : nat) (o : opt) (r : row) : row :=
  {| row_cells := row_cells r;
     row_options := set_option o (row_options r);
     row_fill := match o with
                 | OFill a => Some {| fill_amount := a; start_row := address_row |}
                 | _ => row_fill r
                 end;
     row_var := match o with OVar v => Some v | _ => row_var r end |}.
Definition assign_cell (o : opt) (c : cell) : cell :=
  {| cell_ast := cell_ast c; cell_field := cell_field c; parsed_value := parsed_value c;
     cell_options := set_option o (cell_options c);
     cell_var := match o with OVar v => Some v | _ => cell_var c end |}.
Definition assign (is_row : bool) (f : field) (o : opt) (s : cell * row) : cell * row :=
  if is_row then (fst s, assign_row (addr_y (f_address f)) o (snd s)) else (assign_cell o (fst s), snd s).

(** lines 269-283; one iteration per option, each of which consumes its name *)
Fixpoint parse_cell_options (fuel : nat) (co : cell_oracle) (is_row : bool) (f : field) (l : clexer)
  (s : cell * row) : outcome cell_error (cell * row * clexer) :=
  match fuel with
  | 0 => NoFuel
  | S n =>
      do (o, l) <- parse_option co is_row f l;
      let s := assign is_row f o s in
      match maybe_take l (lit "/") with
      | (Some l, _) => parse_cell_options n co is_row f l s
      | (None, l) =>
          match maybe_take l (lit "]]") with
          | (Some l, _) => Ok (s, l)
          | (None, l) => parse_cell_options n co is_row f l s
          end
      end
  end.

(** lines 79-109: the loop over the option lists of one cell *)
Fixpoint parse_option_lists (fuel : nat) (co : cell_oracle) (f : field) (l : clexer) (parsed : option cell)
  (r : row) : outcome cell_error (option cell * row * clexer) :=
  match fuel with
  | 0 => NoFuel
  | S n =>
      match maybe_take_start_options l with
      | (None, l) => Ok (parsed, r, l)
      | (Some (st, tok, l), _) =>
          let is_row := match st with StartRow => true | StartCell => false end in
          if is_row && negb (addr_x (f_address f) =? 0) then token_error f tok MRowOptionsPlace
          else if negb is_row && match parsed with Some _ => true | None => false end then token_error f tok MOptionsTwice
          else
            do (s, l) <- parse_cell_options (S (length (cl_input l))) co is_row f l (cell_default_from r f, r);
            parse_option_lists n co f l (if is_row then parsed else Some (fst s)) (snd s)
      end
  end.
(** lines 74-116 [parse_cell]; the row is returned along with the cell *)
Definition parse_cell (co : cell_oracle) (f : field) (r : row) : outcome cell_error (cell * row) :=
  do (pr, l) <- parse_option_lists (S (length (f_value f))) co f {| cl_input := f_value f; cl_offset := 0 |} None r;
  let (parsed, r) := (pr : option cell * row) in
  let c := match parsed with Some c => c | None => cell_default_from r f end in
  Ok ({| cell_ast := cell_ast c; cell_field := cell_field c; parsed_value := rest l;
         cell_options := cell_options c; cell_var := cell_var c |}, r).

(** ** cell/mod.rs 39-48 and 76-81 *)
(** error/mod.rs 32-36: CellSyntaxError from the cell parser or from the formula parser, at an
    address. *)
Inductive syntax_error := BadOptions (e : cell_error) | BadFormula (e : parse_error).
Record located_error := { le_address : address; le_error : syntax_error }.
Definition at_address {A} (a : address) (x : outcome cell_error A) : outcome located_error A :=
  match x with
  | Ok v => Ok v
  | Err e => Err {| le_address := a; le_error := BadOptions e |}
  | Panic => Panic
  | NoFuel => NoFuel
  end.
(** ast_lexer/token_match.rs 27-42 and unknown_token.rs 22-32: the position of a token of a cell's
    formula is looked up in the field, by the column the lexer counted from the start of the
    formula; Eof is one past the field's last character. *)
Definition position_in_field (f : field) (e : parse_error) : position :=
  match (if pe_eof e then eof_position f else position_for_offset f (line_offset (pe_position e))) with
  | Some p => p
  | None => pe_position e
  end.
Definition parse_error_in_field (f : field) (e : parse_error) : parse_error :=
  {| pe_kind := pe_kind e; pe_position := position_in_field f e; pe_saw := pe_saw e; pe_eof := pe_eof e |}.
Definition parse_formula (co : cell_oracle) (f : field) (input : str) : outcome located_error (option node) :=
  if starts_with [c_eq] input
  then match ast_parse (co_oracle co) false input with
       | Ok a => Ok (Some a)
       | Err e => Err {| le_address := f_address f; le_error := BadFormula (parse_error_in_field f e) |}
       | Panic => Panic
       | NoFuel => NoFuel
       end
  else Ok None.
Definition cell_parse (co : cell_oracle) (f : field) (r : row) : outcome located_error (cell * row) :=
  do (c, r) <- at_address (f_address f) (parse_cell co f r);
  do a <- parse_formula co f (parsed_value c);
  Ok ({| cell_ast := a; cell_field := cell_field c; parsed_value := parsed_value c;
         cell_options := cell_options c; cell_var := cell_var c |}, r).

(** ** row/mod.rs 57-66: the cells are parsed from left to right with the same mutable row *)
Fixpoint row_parse_cells (co : cell_oracle) (fs : list field) (r : row) : outcome located_error (list cell * row) :=
  match fs with
  | [] => Ok ([], r)
  | f :: fs =>
      do (c, r) <- cell_parse co f r;
      do (cs, r) <- row_parse_cells co fs r;
      Ok (c :: cs, r)
  end.
Definition row_parse (co : cell_oracle) (fs : list field) : outcome located_error row :=
  do (cs, r) <- row_parse_cells co fs default_row;
  Ok {| row_cells := cs; row_options := row_options r; row_fill := row_fill r; row_var := row_var r |}.
