(** * Targets: model of src/target: merging with what is already there, and what is written to CSV files,
    Google Sheets and Excel workbooks.

    Not in /repo and therefore taken from their documentation: the csv crate (how records become text), the Google
    Sheets API (what a batchUpdate does), umya_spreadsheet (a worksheet is a map from positions to cells). *)
From Verif Require Import Base Csvp Ast Options Sheet.

(** ** Merging: target/mod.rs *)
(** target/mod.rs 15-19 *)
Inductive existing (V : Type) := EValue (v : V) | EEmpty.
Arguments EValue {V} v.
Arguments EEmpty {V}.
(** target/mod.rs 44-49 *)
Inductive merged (V : Type) := MExisting (v : V) | MNew (c : cell) | MEmpty.
Arguments MExisting {V} v.
Arguments MNew {V} c.
Arguments MEmpty {V}.
(** target/mod.rs 67-91; [overwrite] is config.overwrite_values *)
Definition merge_cell {V} (overwrite : bool) (ex : existing V) (new : option cell) : merged V :=
  match new with
  | Some c => match ex with
              | EValue v => if overwrite then MNew c else MExisting v
              | EEmpty => MNew c
              end
  | None => match ex with EValue v => MExisting v | EEmpty => MEmpty end
  end.
(** target/mod.rs 51-65 *)
Definition merge_rows {V} (overwrite : bool) (ex : list (existing V)) (new : list cell) : list (merged V) :=
  map (fun i => merge_cell overwrite (nth i ex EEmpty) (nth_error new i)) (seq 0 (Nat.max (length ex) (length new))).

(** ** CSV files: target/csv *)
(** csv/mod.rs 49-64; the records of the file as the csv crate reads them, none if there is no such file *)
Definition csv_existing (records : list (list str)) : list (list (existing str)) :=
  map (map (fun s => match s with [] => EEmpty | _ => EValue s end)) records.
(** csv/compilation_target.rs 33-37 *)
Definition csv_field (m : merged str) : str :=
  match m with MNew c => show_cell c | MExisting v => v | MEmpty => [] end.
(** [Vec::resize] *)
Definition resize {A} (n : nat) (x : A) (l : list A) : list A := firstn n l ++ repeat x (n - length l).
(** csv/compilation_target.rs 10-55: the records written *)
Fixpoint csv_rows (overwrite : bool) (widest : nat) (ex : list (list (existing str))) (rows : list row) : list (list str) :=
  match rows with
  | [] => []
  | r :: rows =>
      resize widest [] (map csv_field (merge_rows overwrite (hd [] ex) (row_cells r)))
      :: csv_rows overwrite widest (tl ex) rows
  end.
Definition csv_write (overwrite : bool) (records : list (list str)) (s : spreadsheet) : list (list str) :=
  csv_rows overwrite (widest_row s) (csv_existing records) (sheet_rows s).
(** The csv crate's writer as it is built in csv/compilation_target.rs 15-17: fields with a comma, a quote or a line
    break are quoted, inner quotes doubled; a record with no text at all is written as a pair of quotes; records end
    with a newline. *)
Definition needs_quotes (s : str) : bool :=
  existsb (fun c => (c =? c_comma) || (c =? c_dquote) || (c =? c_nl) || (c =? c_cr))%N s.
Definition doubled (s : str) : str := flat_map (fun c => if (c =? c_dquote)%N then [c; c] else [c]) s.
Definition csv_field_text (s : str) : str := if needs_quotes s then [c_dquote] ++ doubled s ++ [c_dquote] else s.
Definition csv_record_text (r : list str) : str :=
  match join [c_comma] (map csv_field_text r) with
  | [] => [c_dquote; c_dquote; c_nl]
  | t => t ++ [c_nl]
  end.
Definition csv_text (rs : list (list str)) : str := flat_map csv_record_text rs.

(** The csv crate's reader as it is built in csv/mod.rs 16-20 (no header, records of any length, otherwise the defaults: comma, quote,
    doubled quotes, records end at a line feed or a carriage return): the crate's automaton. Lines without any text are skipped. *)
Inductive csv_state := AtRecord | AtField | InText | InQuotes | AfterQuote.
Definition is_line_end (c : char) : bool := ((c =? c_nl) || (c =? c_cr))%N.
(** [field] and [record] are what has been read of the current field and record *)
Fixpoint csv_read_go (st : csv_state) (field : str) (record : list str) (s : str) : list (list str) :=
  match s with
  | [] => match st with AtRecord => [] | _ => [record ++ [field]] end
  | c :: s =>
      let text := if (c =? c_comma)%N then csv_read_go AtField [] (record ++ [field]) s
                  else if is_line_end c then (record ++ [field]) :: csv_read_go AtRecord [] [] s
                  else csv_read_go InText (field ++ [c]) record s in
      match st with
      | AtRecord | AtField =>
          if match st with AtRecord => is_line_end c | _ => false end then csv_read_go AtRecord [] [] s
          else if (c =? c_dquote)%N then csv_read_go InQuotes [] record s
          else text
      | InText => text
      | InQuotes => if (c =? c_dquote)%N then csv_read_go AfterQuote field record s else csv_read_go InQuotes (field ++ [c]) record s
      | AfterQuote => if (c =? c_dquote)%N then csv_read_go InQuotes (field ++ [c]) record s else text
      end
  end.
Definition csv_read (s : str) : list (list str) := csv_read_go AtRecord [] [] s.

(** ** Values: what a cell is to a spreadsheet program *)
Inductive entered :=
| EnBool (b : bool)
| EnText (s : str)
| EnFloat (text : str)          (* the f64 with this Display *)
| EnNumber (z : Z)              (* the f64 with this integer value *)
| EnFormula (s : str)
| EnNothing.
(** [value as f64] of an i64: to the nearest f64, ties to even *)
Definition f64_of_i64 (v : Z) : Z :=
  let a := Z.abs v in
  if (a <=? 2 ^ 53)%Z then v
  else let e := (Z.log2 a - 52)%Z in
       let m := (a / 2 ^ e)%Z in let r := (a mod 2 ^ e)%Z in let half := (2 ^ (e - 1))%Z in
       let m := if (r <? half)%Z then m else if (half <? r)%Z then (m + 1)%Z else if Z.even m then m else (m + 1)%Z in
       (Z.sgn v * (m * 2 ^ e))%Z.
(** google_sheets/batch_update_builder.rs 117-158 *)
Definition google_value (c : cell) : entered :=
  match cell_ast c with
  | Some (NBool b) => EnBool b
  | Some (NText t) => EnText t
  | Some (NFloat false None v) => EnFloat v
  | Some (NInt false None v) => EnNumber (f64_of_i64 v)
  | Some a => EnFormula (c_eq :: show a)
  | None => match parsed_value c with [] => EnNothing | v => EnText v end
  end.
(** excel/mod.rs 114-135; umya formulas are written without the equals sign *)
Definition excel_value (c : cell) : entered :=
  match cell_ast c with
  | Some (NBool b) => EnBool b
  | Some (NText t) => EnText t
  | Some (NFloat false None v) => EnFloat v
  | Some (NInt false None v) => EnNumber (f64_of_i64 v)
  | Some a => EnFormula (show a)
  | None => match parsed_value c with [] => EnNothing | v => EnText v end
  end.

(** ** Google Sheets: target/google_sheets/batch_update_builder.rs *)
(** batch_update_builder.rs 50-74: the data of one cell; V is api::CellData *)
Inductive gcell (V : Type) := GExisting (v : V) | GDefault | GNew (c : cell).
Arguments GExisting {V} v.
Arguments GDefault {V}.
Arguments GNew {V} c.
Definition gcell_of {V} (m : merged V) : gcell V :=
  match m with MExisting v => GExisting v | MEmpty => GDefault | MNew c => GNew c end.
(** google_sheets/mod.rs 107-120: every cell the API returns, blank or not, is a value *)
Definition google_existing {V} (rows : list (list V)) : list (list (existing V)) := map (map EValue) rows.
(** batch_update_builder.rs 76-92 *)
Fixpoint google_rows {V} (overwrite : bool) (ex : list (list (existing V))) (rows : list row) : list (list (gcell V)) :=
  match rows with
  | [] => []
  | r :: rows => map gcell_of (merge_rows overwrite (hd [] ex) (row_cells r)) :: google_rows overwrite (tl ex) rows
  end.
(** slice::chunks *)
Fixpoint chunks {A} (fuel n : nat) (l : list A) : list (list A) :=
  match fuel with
  | 0 => []
  | S fuel => match l with [] => [] | _ => firstn n l :: chunks fuel n (skipn n l) end
  end.
(** api::UpdateCellsRequest: the start and the rows *)
Record request V := { at_row : N; at_column : N; data : list (list (gcell V)) }.
Arguments at_row {V}. Arguments at_column {V}. Arguments data {V}.
(** batch_update_builder.rs 37-48, 94-112; config.offset = (x_offset, y_offset) (config/try_from.rs 14), both u32;
    the conversions to i32 panic *)
Definition google_requests {V} (overwrite : bool) (offset : N * N) (ex : list (list (existing V))) (rows : list row)
  : outcome unit (list (request V)) :=
  let all_rows := google_rows overwrite ex rows in
  let parts := chunks (length all_rows) 1000 all_rows in
  let fits n := (n <? 2 ^ 31)%N in
  match parts with
  | [] => Ok []
  | _ => if fits (fst offset) && fits (snd offset)
         then Ok (map (fun rows => {| at_row := fst offset; at_column := snd offset; data := rows |}) parts)
         else Panic
  end.
(** What the API does with a request: the i-th row goes to the i-th row below the start, its j-th cell to the j-th
    column right of it; nothing else changes. A sheet is a function of row and column. *)
Definition gsheet V := N -> N -> gcell V.
Definition apply_request {V} (g : gsheet V) (q : request V) : gsheet V := fun r c =>
  if ((at_row q <=? r) && (at_column q <=? c))%N
  then match nth_error (data q) (N.to_nat (r - at_row q)) with
       | Some row => match nth_error row (N.to_nat (c - at_column q)) with Some x => x | None => g r c end
       | None => g r c
       end
  else g r c.
Definition apply_requests {V} (g : gsheet V) (qs : list (request V)) : gsheet V := fold_left apply_request qs g.

(** ** Excel: target/excel/mod.rs *)
(** a cell of a worksheet: an old one, or one that was written: the value it had before, the value set, the cell whose
    style it has *)
Record xcell V := { x_before : option V; x_set : entered; x_style : option cell }.
Arguments x_before {V}. Arguments x_set {V}. Arguments x_style {V}.
Record worksheet V := {
  ws_cells : address -> option (xcell V);
  ws_comments : list (nat * nat * str);                     (* column and row number, counted from 1; text *)
  ws_validations : list (address * data_validation);
}.
Arguments ws_cells {V}. Arguments ws_comments {V}. Arguments ws_validations {V}.
Definition address_eqb (a b : address) : bool := (addr_x a =? addr_x b) && (addr_y a =? addr_y b).
(** excel/mod.rs 141-151 *)
Definition excel_existing {V} (w : worksheet V) (p : address) : existing (xcell V) :=
  match ws_cells w p with Some x => EValue x | None => EEmpty end.
(** excel/mod.rs 50-77 for one cell; [todo] is cell_validations. [get_cell_mut] makes an empty cell where there is none;
    [set_value] (114-135) does nothing for a cell without text. The comment's column and row numbers are the indices
    from 0 (99-111). *)
Definition excel_cell {V} (overwrite : bool) (p : address) (c : cell) (acc : worksheet V * list (address * data_validation))
  : worksheet V * list (address * data_validation) :=
  let (w, todo) := acc in
  match merge_cell overwrite (excel_existing w p) (Some c) with
  | MExisting _ | MEmpty => (w, todo)
  | MNew c =>
      let old := match ws_cells w p with Some x => x | None => {| x_before := None; x_set := EnNothing; x_style := None |} end in
      let new := {| x_before := x_before old;
                    x_set := match excel_value c with EnNothing => x_set old | v => v end;
                    x_style := Some c |} in
      ({| ws_cells := fun q => if address_eqb q p then Some new else ws_cells w q;
          ws_comments := match note (cell_options c) with
                         | Some n => ws_comments w ++ [(addr_x p, addr_y p, n)]
                         | None => ws_comments w
                         end;
          ws_validations := ws_validations w |},
       match validation (cell_options c) with Some v => todo ++ [(p, v)] | None => todo end)
  end.
Fixpoint excel_row {V} (overwrite : bool) (y x : nat) (cs : list cell) (acc : worksheet V * list (address * data_validation)) :=
  match cs with
  | [] => acc
  | c :: cs => excel_row overwrite y (S x) cs (excel_cell overwrite {| addr_x := x; addr_y := y |} c acc)
  end.
Fixpoint excel_rows {V} (overwrite : bool) (y : nat) (rows : list row) (acc : worksheet V * list (address * data_validation)) :=
  match rows with
  | [] => acc
  | r :: rows => excel_rows overwrite (S y) rows (excel_row overwrite y 0 (row_cells r) acc)
  end.
(** excel/mod.rs 43-97 *)
Definition build_worksheet {V} (overwrite : bool) (s : spreadsheet) (w : worksheet V) : worksheet V :=
  let (w, todo) := excel_rows overwrite 0 (sheet_rows s) (w, []) in
  match todo with
  | [] => w
  | _ => {| ws_cells := ws_cells w; ws_comments := ws_comments w; ws_validations := todo |}
  end.

(** ** Formats *)
Definition has_format (o : options) (f : text_format) : bool := existsb (text_format_eqb f) (text_formats o).
Definition has_side (o : options) (s : border_side) : bool := existsb (border_side_eqb s) (borders o).
(** a colour as it is sent: to Google three fractions of 255 (rgb/from.rs 3-20, google_sheets_cell.rs 45-61; the f32
    division is not modelled), to Excel the text given as ARGB (excel_cell.rs 68-74, 103-107) *)
Inductive sent_color := Fractions (r g b : N) | Argb (s : str).
Definition google_color (c : rgb) : sent_color := Fractions (red c) (green c) (blue c).
Definition excel_color (c : rgb) : sent_color := Argb (rgb_to_rgba c).
(** a border as it is sent: its colour and style *)
Record border := { b_color : option sent_color; b_style : str }.
Record font := { f_bold : bool; f_italic : bool; f_strike : bool; f_underline : bool; f_family : option str; f_size : option nat; f_color : option sent_color }.
(** the parts of api::CellFormat and umya's Style that the program sets *)
Record format := {
  fm_background : option sent_color;
  fm_top : option border; fm_bottom : option border; fm_left : option border; fm_right : option border;
  fm_font : option font;
  fm_halign : str; fm_valign : str; fm_wrap : str; fm_number : str;
}.
Definition font_of (sent : rgb -> sent_color) (o : options) : font :=
  {| f_bold := has_format o TFBold; f_italic := has_format o TFItalic; f_strike := has_format o TFStrikethrough;
     f_underline := has_format o TFUnderline; f_family := font_family o; f_size := font_size o; f_color := option_map sent (font_color o) |}.
(** google_sheets_cell.rs 163-174 *)
Definition google_border_style (s : border_style) : str :=
  match s with BDashed => lit "DASHED" | BDotted => lit "DOTTED" | BDouble => lit "DOUBLE" | BSolid => lit "SOLID"
             | BSolidMedium => lit "SOLID_MEDIUM" | BSolidThick => lit "SOLID_THICK" end.
(** google_sheets_cell.rs 155-161, 189-195 *)
Definition google_border (o : options) (s : border_side) : option border :=
  if has_side o s then Some {| b_color := option_map google_color (border_color o); b_style := google_border_style (border_style_ o) |} else None.
(** google_sheets_cell.rs 205-212 *)
Definition google_halign (h : horizontal_align) : str :=
  match h with HLeft => lit "LEFT" | HCenter => lit "MIDDLE" | HRight => lit "RIGHT" end.
(** google_sheets_cell.rs 268-275 *)
Definition google_valign (v : vertical_align) : str :=
  match v with VTop => lit "TOP" | VCenter => lit "MIDDLE" | VBottom => lit "BOTTOM" end.
(** google_sheets_cell.rs 277-284 *)
Definition google_wrap (w : text_wrap) : str :=
  match w with WWrap => lit "WRAP" | WOverflow => lit "OVERFLOW" | WClip => lit "CLIP" end.
(** google_sheets_cell.rs 216-233 *)
Definition google_number (n : number_format) : str :=
  match n with NFCurrency => lit "CURRENCY" | NFDate => lit "DATE" | NFDateTime => lit "DATE_TIME" | NFNumber => lit "NUMBER"
             | NFPercent => lit "PERCENT" | NFText => lit "TEXT" | NFTime => lit "TIME" | NFScientific => lit "SCIENTIFIC" end.
(** google_sheets_cell.rs 64-83, 176-187, 235-266. (An empty set of borders is None for all sides.) *)
Definition google_format (o : options) : format :=
  let none := match font_family o, font_size o, font_color o with None, None, None => true | _, _, _ => false end
              && negb (has_format o TFBold || has_format o TFItalic || has_format o TFStrikethrough || has_format o TFUnderline) in
  {| fm_background := option_map google_color (color o);
     fm_top := google_border o BTop; fm_bottom := google_border o BBottom; fm_left := google_border o BLeft; fm_right := google_border o BRight;
     fm_font := if none then None else Some (font_of google_color o);
     fm_halign := google_halign (horizontal_align_ o); fm_valign := google_valign (vertical_align_ o);
     fm_wrap := google_wrap (text_wrap_ o); fm_number := google_number (number_format_ o) |}.
(** excel_cell.rs 12-25, by the names of the OOXML border styles *)
Definition excel_border_style (s : border_style) : str :=
  match s with BDashed => lit "dashed" | BDotted => lit "dotted" | BDouble => lit "double" | BSolid => lit "thin"
             | BSolidMedium => lit "medium" | BSolidThick => lit "thick" end.
(** excel_cell.rs 109-132 with cell/mod.rs 108-110; the colour of the border is not set *)
Definition excel_border (o : options) (s : border_side) : option border :=
  if has_side o BAll || has_side o s then Some {| b_color := None; b_style := excel_border_style (border_style_ o) |} else None.
(** excel_cell.rs 41-49 *)
Definition excel_halign (h : horizontal_align) : str :=
  match h with HLeft => lit "left" | HCenter => lit "center" | HRight => lit "right" end.
(** excel_cell.rs 76-84 *)
Definition excel_valign (v : vertical_align) : str :=
  match v with VTop => lit "top" | VCenter => lit "center" | VBottom => lit "bottom" end.
(** excel_cell.rs 86-90 *)
Definition excel_wrap (w : text_wrap) : str := match w with WWrap => lit "true" | _ => lit "false" end.
(** excel_cell.rs 51-66; the code names umya's constants *)
Definition excel_number (n : number_format) : str :=
  match n with NFCurrency => lit "FORMAT_CURRENCY_USD" | NFDate => lit "FORMAT_DATE_YYYYMMDD" | NFDateTime => lit "FORMAT_DATE_DATETIME"
             | NFNumber => lit "FORMAT_NUMBER" | NFPercent => lit "FORMAT_PERCENTAGE" | NFText => lit "FORMAT_TEXT"
             | NFTime => lit "FORMAT_DATE_TIME1" | NFScientific => lit "0.00E+00" end.
(** excel_cell.rs 27-39, 93-107, 134-178 *)
Definition excel_format (o : options) : format :=
  let none := match font_family o, font_size o, font_color o, text_formats o with None, None, None, [] => true | _, _, _, _ => false end in
  {| fm_background := option_map excel_color (color o);
     fm_top := excel_border o BTop; fm_bottom := excel_border o BBottom; fm_left := excel_border o BLeft; fm_right := excel_border o BRight;
     fm_font := if none then None else Some (font_of excel_color o);
     fm_halign := excel_halign (horizontal_align_ o); fm_valign := excel_valign (vertical_align_ o);
     fm_wrap := excel_wrap (text_wrap_ o); fm_number := excel_number (number_format_ o) |}.

(** ** Data validation *)
(** api::BooleanCondition: its type, whether its values are dates, and its values (google_sheets_cell.rs 17-43, 85-153) *)
Record condition := { cd_type : str; cd_dates : bool; cd_values : list str }.
Definition google_condition (v : data_validation) : condition :=
  let d t vs := {| cd_type := lit t; cd_dates := true; cd_values := vs |} in
  let s t vs := {| cd_type := lit t; cd_dates := false; cd_values := vs |} in
  match v with
  | DVCustom c => s "CUSTOM"%string [c]
  | DVDateAfter a => d "DATE_AFTER"%string [a]
  | DVDateBefore a => d "DATE_BEFORE"%string [a]
  | DVDateBetween a b => d "DATE_BETWEEN"%string [a; b]
  | DVDateEqualTo a => d "DATE_EQUAL_TO"%string [a]
  | DVDateIsValid => d "DATE_IS_VALID_DATE"%string []
  | DVDateNotBetween a b => d "DATE_NOT_BETWEEN"%string [a; b]
  | DVDateOnOrAfter a => d "DATE_ON_OR_AFTER"%string [a]
  | DVDateOnOrBefore a => d "DATE_ON_OR_BEFORE"%string [a]
  | DVNumberBetween a b => s "NUMBER_BETWEEN"%string [show_Z a; show_Z b]
  | DVNumberEqualTo a => s "NUMBER_EQUAL_TO"%string [show_Z a]
  | DVNumberGreaterThan a => s "NUMBER_GREATER_THAN"%string [show_Z a]
  | DVNumberGreaterThanOrEqualTo a => s "NUMBER_GREATER_THAN_OR_EQUAL_TO"%string [show_Z a]
  | DVNumberLessThan a => s "NUMBER_LESS_THAN"%string [show_Z a]
  | DVNumberLessThanOrEqualTo a => s "NUMBER_LESS_THAN_OR_EQUAL_TO"%string [show_Z a]
  | DVNumberNotBetween a b => s "NUMBER_NOT_BETWEEN"%string [show_Z a; show_Z b]
  | DVNumberNotEqualTo a => s "NUMBER_NOT_EQUAL_TO"%string [show_Z a]
  | DVTextContains t => s "TEXT_CONTAINS"%string [t]
  | DVTextDoesNotContain t => s "TEXT_DOES_NOT_CONTAIN"%string [t]
  | DVTextEqualTo t => s "TEXT_EQUAL_TO"%string [t]
  | DVTextIsValidEmail => s "TEXT_IS_VALID_EMAIL"%string []
  | DVTextIsValidUrl => s "TEXT_IS_VALID_URL"%string []
  | DVValueInList l => s "VALUE_IN_LIST"%string (map show l)
  | DVValueInRange a1 => s "VALUE_IN_RANGE"%string [a1]
  end.
(** umya's DataValidation: type, operator (unset for custom formulas), first and second formula. [serial] is
    DateTime::distance_from_epoch of the date with that Display; [None] is its unimplemented!() for times
    (excel/cell_validation.rs, date_time/mod.rs 20-30). The prompts are not modelled. *)
Record xvalidation := { xv_type : str; xv_operator : option str; xv_formula1 : str; xv_formula2 : option str }.
Definition quoted (s : str) : str := [c_dquote] ++ s ++ [c_dquote].
Definition excel_validation (serial : str -> option Z) (p : address) (v : data_validation) : outcome unit xvalidation :=
  let pos := show_address p in
  let custom f := Ok {| xv_type := lit "Custom"; xv_operator := None; xv_formula1 := f; xv_formula2 := None |} in
  let one ty op f := Ok {| xv_type := lit ty; xv_operator := Some (lit op); xv_formula1 := f; xv_formula2 := None |} in
  let two ty op f g := Ok {| xv_type := lit ty; xv_operator := Some (lit op); xv_formula1 := f; xv_formula2 := Some g |} in
  let date1 op a := match serial a with Some n => one "Date"%string op (show_Z n) | None => Panic end in
  let date2 op a b := match serial a, serial b with Some n, Some m => two "Date"%string op (show_Z n) (show_Z m) | _, _ => Panic end in
  match v with
  | DVCustom c => custom c
  | DVDateAfter a => date1 "GreaterThan"%string a
  | DVDateBefore a => date1 "LessThan"%string a
  | DVDateBetween a b => date2 "Between"%string a b
  | DVDateEqualTo a => date1 "Equal"%string a
  | DVDateIsValid => custom (lit "=ISNUMBER(DAY(" ++ pos ++ lit "))")
  | DVDateNotBetween a b => date2 "NotBetween"%string a b
  | DVDateOnOrAfter a => date1 "GreaterThanOrEqual"%string a
  | DVDateOnOrBefore a => date1 "LessThanOrEqual"%string a
  | DVNumberBetween a b => two "Decimal"%string "Between"%string (show_Z a) (show_Z b)
  | DVNumberEqualTo a => one "Decimal"%string "Equal"%string (show_Z a)
  | DVNumberGreaterThan a => one "Decimal"%string "GreaterThan"%string (show_Z a)
  | DVNumberGreaterThanOrEqualTo a => one "Decimal"%string "GreaterThanOrEqual"%string (show_Z a)
  | DVNumberLessThan a => one "Decimal"%string "LessThan"%string (show_Z a)
  | DVNumberLessThanOrEqualTo a => one "Decimal"%string "LessThanOrEqual"%string (show_Z a)
  | DVNumberNotBetween a b => two "Decimal"%string "NotBetween"%string (show_Z a) (show_Z b)
  | DVNumberNotEqualTo a => one "Decimal"%string "NotEqual"%string (show_Z a)
  | DVTextContains t => custom (lit "=ISNUMBER(SEARCH(" ++ quoted t ++ lit ", " ++ pos ++ lit "))")
  | DVTextDoesNotContain t => custom (lit "=NOT(ISNUMBER(SEARCH(" ++ quoted t ++ lit ", " ++ pos ++ lit ")))")
  | DVTextEqualTo t => custom (pos ++ lit " = " ++ quoted t)
  | DVTextIsValidEmail => custom (lit "=ISNUMBER(MATCH(""*@*.?*"", " ++ pos ++ lit ", 0))")
  | DVTextIsValidUrl => custom (lit "=RegExpMatch(" ++ pos ++ lit ", ""^http"")")
  | DVValueInList l => one "List"%string "Equal"%string
                         (quoted (join (lit ", ") (map (fun n => filter (fun c => negb (c =? c_dquote)%N) (show n)) l)))
  | DVValueInRange a1 => one "List"%string "Equal"%string a1
  end.
(** chrono's day count of a calendar date (proleptic Gregorian; days since 0000-03-01) *)
Definition day_number (y m d : Z) : Z :=
  let y' := (if m <=? 2 then y - 1 else y)%Z in
  let m' := ((m + 9) mod 12)%Z in
  (365 * y' + y' / 4 - y' / 100 + y' / 400 + (153 * m' + 2) / 5 + (d - 1))%Z.
(** date_time/mod.rs 16-30 *)
Definition distance_from_epoch (y m d : Z) : Z := (day_number y m d - day_number 1900 1 1)%Z.
