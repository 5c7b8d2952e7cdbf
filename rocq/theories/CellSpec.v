(** * CellSpec: what an option list means, independently of how it is read.

    Tables are written from book/src/language_reference/cell_and_row_options.md; where the document
    and the program disagree the table follows the program and a theorem in PropCell.v records the
    difference. *)
From Verif Require Import Base Csvp Ast AstParser Options CellParser.

Definition spaces (w : str) : Prop := forallb is_ws w = true.
Definition one_of (s : str) (l : list string) : Prop := In s (map lit l).

(** ** Tables of documented spellings (lower case) *)
Definition table (A : Type) := list (string * A).
Definition spelled {A} (t : table A) (s : str) (v : A) : Prop := In (s, v) (map (fun '(k, v) => (lit k, v)) t).
Open Scope string_scope.
Definition border_names : table border_side :=
  [("all", BAll); ("a", BAll); ("top", BTop); ("t", BTop); ("bottom", BBottom); ("b", BBottom);
   ("left", BLeft); ("l", BLeft); ("right", BRight); ("r", BRight)].
Definition border_style_names : table border_style :=
  [("dashed", BDashed); ("dash", BDashed); ("dotted", BDotted); ("dot", BDotted); ("double", BDouble);
   ("dbl", BDouble); ("solid", BSolid); ("1", BSolid); ("solid_medium", BSolidMedium); ("2", BSolidMedium);
   ("solid_thick", BSolidThick); ("3", BSolidThick)].
Definition halign_names : table horizontal_align :=
  [("left", HLeft); ("l", HLeft); ("center", HCenter); ("c", HCenter); ("right", HRight); ("r", HRight)].
Definition valign_names : table vertical_align :=
  [("bottom", VBottom); ("b", VBottom); ("center", VCenter); ("c", VCenter); ("top", VTop); ("t", VTop)].
Definition number_format_names : table number_format :=
  [("currency", NFCurrency); ("c", NFCurrency); ("date", NFDate); ("d", NFDate); ("datetime", NFDateTime);
   ("dt", NFDateTime); ("number", NFNumber); ("n", NFNumber); ("percent", NFPercent); ("p", NFPercent);
   ("text", NFText); ("time", NFTime); ("t", NFTime); ("scientific", NFScientific); ("s", NFScientific)].
Definition text_format_names : table text_format :=
  [("bold", TFBold); ("b", TFBold); ("italic", TFItalic); ("i", TFItalic); ("strikethrough", TFStrikethrough);
   ("s", TFStrikethrough); ("underline", TFUnderline); ("u", TFUnderline)].
Definition wrap_names : table text_wrap :=
  [("wrap", WWrap); ("w", WWrap); ("overflow", WOverflow); ("o", WOverflow); ("clip", WClip); ("c", WClip)].
(** validations by the arguments they take *)
Definition plain_validations : table data_validation :=
  [("date_is_valid", DVDateIsValid); ("is_date", DVDateIsValid); ("is_valid_email", DVTextIsValidEmail);
   ("is_email", DVTextIsValidEmail); ("is_valid_url", DVTextIsValidUrl); ("is_url", DVTextIsValidUrl)].
Definition text_validations : table (str -> data_validation) :=
  [("custom", DVCustom); ("c", DVCustom); ("text_contains", DVTextContains);
   ("text_does_not_contain", DVTextDoesNotContain); ("text_equal_to", DVTextEqualTo); ("text_eq", DVTextEqualTo)].
Definition date_validations : table (str -> data_validation) :=
  [("date_after", DVDateAfter); ("date_gt", DVDateAfter); ("date_before", DVDateBefore); ("date_lt", DVDateBefore);
   ("date_equal_to", DVDateEqualTo); ("date_eq", DVDateEqualTo); ("date_on_or_after", DVDateOnOrAfter);
   ("date_gte", DVDateOnOrAfter); ("date_on_or_before", DVDateOnOrBefore); ("date_lte", DVDateOnOrBefore)].
Definition date_pair_validations : table (str -> str -> data_validation) :=
  [("date_between", DVDateBetween); ("date_btwn", DVDateBetween); ("date_not_between", DVDateNotBetween);
   ("date_nbtwn", DVDateNotBetween)].
Definition number_validations : table (Z -> data_validation) :=
  [("number_equal_to", DVNumberEqualTo); ("num_eq", DVNumberEqualTo); ("number_greater_than", DVNumberGreaterThan);
   ("num_gt", DVNumberGreaterThan); ("number_greater_than_or_equal_to", DVNumberGreaterThanOrEqualTo);
   ("num_gte", DVNumberGreaterThanOrEqualTo); ("number_less_than", DVNumberLessThan); ("num_lt", DVNumberLessThan);
   ("number_less_than_or_equal_to", DVNumberLessThanOrEqualTo); ("num_lte", DVNumberLessThanOrEqualTo);
   ("number_not_equal_to", DVNumberNotEqualTo); ("num_neq", DVNumberNotEqualTo)].
Definition number_pair_validations : table (Z -> Z -> data_validation) :=
  [("number_between", DVNumberBetween); ("num_btwn", DVNumberBetween); ("number_not_between", DVNumberNotBetween);
   ("num_nbtwn", DVNumberNotBetween)].
Close Scope string_scope.

(** ** Texts of values *)
Definition is_hex (c : char) (d : N) : Prop :=
  (48 <= c <= 57 /\ d = c - 48 \/ 65 <= c <= 70 /\ d = c - 55 \/ 97 <= c <= 102 /\ d = c - 87)%N.
(** three digits, each doubled, or six digits; a hash sign may come first *)
Inductive hex_text : str -> rgb -> Prop :=
| hex_short x y z a b c : is_hex x a -> is_hex y b -> is_hex z c ->
    hex_text [x; y; z] {| red := 17 * a; green := 17 * b; blue := 17 * c |}
| hex_long x1 x2 y1 y2 z1 z2 a1 a2 b1 b2 c1 c2 :
    is_hex x1 a1 -> is_hex x2 a2 -> is_hex y1 b1 -> is_hex y2 b2 -> is_hex z1 c1 -> is_hex z2 c2 ->
    hex_text [x1; x2; y1; y2; z1; z2] {| red := 16 * a1 + a2; green := 16 * b1 + b2; blue := 16 * c1 + c2 |}.
Definition color_text (t : str) (c : rgb) : Prop := hex_text t c \/ exists r, t = c_hash :: r /\ hex_text r c.

(** a word: letters, digits and underscores *)
Definition word_char (c : char) : bool := is_ascii_alnum c || (c =? c_underscore)%N.
Definition word (w : str) : Prop := w <> [] /\ forallb word_char w = true.
(** a quoted text: in single quotes, a backslash before any character stands for that character *)
Inductive quoted_body : str -> str -> Prop :=
| qb_nil : quoted_body [] []
| qb_plain c t s : c <> c_squote -> c <> c_backslash -> quoted_body t s -> quoted_body (c :: t) (c :: s)
| qb_escape c t s : quoted_body t s -> quoted_body (c_backslash :: c :: t) (c :: s).
Definition quoted_text (t s : str) : Prop := exists b, t = [c_squote] ++ b ++ [c_squote] /\ quoted_body b s.
(** a string value: quoted, or a run of letters and digits *)
Definition string_text (t s : str) : Prop :=
  quoted_text t s \/ (t = s /\ t <> [] /\ forallb is_ascii_alnum t = true).
(** a whole number *)
Definition natural_text (t : str) (n : N) : Prop := all_digits t = true /\ n = digits_value t.
Definition integer_text (t : str) (z : Z) : Prop :=
  (all_digits t = true /\ z = Z.of_N (digits_value t) /\ (z < 2 ^ 63)%Z)
  \/ (exists r, t = c_minus :: r /\ all_digits r = true /\ z = (- Z.of_N (digits_value r))%Z /\ (- 2 ^ 63 <= z)%Z).
(** the two shapes of dates, year-month-day and month/day/year *)
Definition digits (lo hi : nat) (t : str) : Prop := lo <= length t <= hi /\ forallb is_ascii_digit t = true.
Definition date_shape (t : str) : Prop :=
  exists a b c, t = a ++ [c_minus] ++ b ++ [c_minus] ++ c /\ digits 4 4 a /\ digits 2 2 b /\ digits 2 2 c
           \/ t = a ++ [c_slash] ++ b ++ [c_slash] ++ c /\ digits 1 2 a /\ digits 1 2 b /\ digits 2 4 c.
Definition date_text (co : cell_oracle) (t d : str) : Prop := date_shape t /\ date_canon co t = Some d.
(** an A1 reference *)
Definition a1_text (co : cell_oracle) (t a : str) : Prop :=
  t <> [] /\ forallb (fun c => is_ascii_alnum c || str_in [c] [lit "!"; lit "'"; lit ":"; lit "$"]) t = true
  /\ a1_canon co t = Some a.
(** one item of a list of allowed values *)
Inductive item_text (co : cell_oracle) : str -> node -> Prop :=
| it_date t d : date_text co t d -> item_text co t (NDate d)
| it_int t z : integer_text t z -> item_text co t (NInt false None z)
| it_float t v a b : t = a ++ [c_dot] ++ b ->
    (all_digits a = true \/ exists a', a = c_minus :: a' /\ all_digits a' = true) -> all_digits b = true ->
    f64_canon (co_oracle co) t = Some v -> item_text co t (NFloat false None v)
| it_quoted t s v : quoted_text t s -> text_unquote s = inr v -> item_text co t (NText v)
| it_word c t : is_ascii_digit c = false -> word (c :: t) -> item_text co (c :: t) (NRef (c :: t)).

(** ** Texts of options *)
(** = between spaces *)
Definition assigns (t v : str) : Prop := exists w1 w2, t = w1 ++ [c_eq] ++ w2 ++ v /\ spaces w1 /\ spaces w2.
(** arguments in parentheses, spaces allowed around each *)
Definition parens1 {A} (val : str -> A -> Prop) (t : str) (a : A) : Prop :=
  exists w0 w1 x w2, t = w0 ++ lit "(" ++ w1 ++ x ++ w2 ++ lit ")" /\ spaces w0 /\ spaces w1 /\ spaces w2 /\ val x a.
(** [gap] says what may stand between two items: with [strict] at least one space *)
Definition gap (strict : bool) (w : str) : Prop := spaces w /\ (strict = true -> w <> []).
Definition parens2 {A} (strict : bool) (val : str -> A -> Prop) (t : str) (a b : A) : Prop :=
  exists w0 w1 x w2 y w3, t = w0 ++ lit "(" ++ w1 ++ x ++ w2 ++ y ++ w3 ++ lit ")"
    /\ spaces w0 /\ spaces w1 /\ gap strict w2 /\ spaces w3 /\ val x a /\ val y b.
Definition in_line (w : str) : Prop := forallb (fun c => is_ws c && negb (c =? c_nl)%N && negb (c =? c_cr)%N) w = true.
Inductive items_text (co : cell_oracle) (strict : bool) : str -> list node -> Prop :=
| is_one w t n : in_line w -> item_text co t n -> items_text co strict (w ++ t) [n]
| is_more w t n w' r ns : in_line w -> item_text co t n -> in_line w' -> (strict = true -> w' <> []) ->
    items_text co strict r ns -> items_text co strict (w ++ t ++ w' ++ r) (n :: ns).
Definition list_args (co : cell_oracle) (strict : bool) (t : str) (ns : list node) : Prop :=
  exists w0 x w2, t = w0 ++ lit "(" ++ x ++ w2 ++ lit ")" /\ spaces w0 /\ in_line w2 /\ items_text co strict x ns.

Inductive validation_text (co : cell_oracle) (strict : bool) : str -> data_validation -> Prop :=
| vt_plain n v : word n -> spelled plain_validations (to_lowercase co n) v -> validation_text co strict n v
| vt_text n t mk s : word n -> spelled text_validations (to_lowercase co n) mk ->
    parens1 string_text t s -> validation_text co strict (n ++ t) (mk s)
| vt_date n t mk d : word n -> spelled date_validations (to_lowercase co n) mk ->
    parens1 (date_text co) t d -> validation_text co strict (n ++ t) (mk d)
| vt_dates n t mk a b : word n -> spelled date_pair_validations (to_lowercase co n) mk ->
    parens2 strict (date_text co) t a b -> validation_text co strict (n ++ t) (mk a b)
| vt_number n t mk z : word n -> spelled number_validations (to_lowercase co n) mk ->
    parens1 integer_text t z -> validation_text co strict (n ++ t) (mk z)
| vt_numbers n t mk a b : word n -> spelled number_pair_validations (to_lowercase co n) mk ->
    parens2 strict integer_text t a b -> validation_text co strict (n ++ t) (mk a b)
| vt_list n t ns : word n -> to_lowercase co n = lit "in_list" ->
    list_args co strict t ns -> validation_text co strict (n ++ t) (DVValueInList ns)
| vt_range n t a : word n -> to_lowercase co n = lit "in_range" ->
    parens1 (a1_text co) t a -> validation_text co strict (n ++ t) (DVValueInRange a).

(** [opt_text co strict is_row t o]: the text [t] is a way of writing option [o]; [is_row] tells whether
    it stands in a row's list, the only place where fill may stand. *)
Inductive opt_text (co : cell_oracle) (strict is_row : bool) : str -> opt -> Prop :=
| ot_border n t w v : one_of n ["b"; "border"]%string -> assigns t w -> word w ->
    spelled border_names (to_lowercase co w) v -> opt_text co strict is_row (n ++ t) (OBorder v)
| ot_border_color n t w c : one_of n ["bc"; "bordercolor"]%string -> assigns t w -> color_text w c ->
    opt_text co strict is_row (n ++ t) (OBorderColor c)
| ot_border_style n t w v : one_of n ["bs"; "borderstyle"]%string -> assigns t w -> word w ->
    spelled border_style_names (to_lowercase co w) v -> opt_text co strict is_row (n ++ t) (OBorderStyle v)
| ot_color n t w c : one_of n ["c"; "color"]%string -> assigns t w -> color_text w c ->
    opt_text co strict is_row (n ++ t) (OColor c)
| ot_validate n t w v : one_of n ["dv"; "validate"]%string -> assigns t w -> validation_text co strict w v ->
    opt_text co strict is_row (n ++ t) (OValidate v)
| ot_fill n : is_row = true -> one_of n ["f"; "fill"]%string -> opt_text co strict is_row n (OFill None)
| ot_fill_amount n t w k : is_row = true -> one_of n ["f"; "fill"]%string -> assigns t w ->
    natural_text w k -> (k <= 18446744073709551615)%N -> opt_text co strict is_row (n ++ t) (OFill (Some (N.to_nat k)))
| ot_font_color n t w c : one_of n ["fc"; "fontcolor"]%string -> assigns t w -> color_text w c ->
    opt_text co strict is_row (n ++ t) (OFontColor c)
| ot_font_family n t w s : one_of n ["ff"; "fontfamily"]%string -> assigns t w -> string_text w s ->
    opt_text co strict is_row (n ++ t) (OFontFamily s)
| ot_font_size n t w k : one_of n ["fs"; "fontsize"]%string -> assigns t w -> natural_text w k ->
    (k <= 255)%N -> opt_text co strict is_row (n ++ t) (OFontSize (N.to_nat k))
| ot_halign n t w v : one_of n ["ha"; "halign"]%string -> assigns t w -> word w ->
    spelled halign_names (to_lowercase co w) v -> opt_text co strict is_row (n ++ t) (OHalign v)
| ot_lock n : one_of n ["l"; "lock"]%string -> opt_text co strict is_row n OLock
| ot_note n t w s : one_of n ["n"; "note"]%string -> assigns t w -> string_text w s ->
    opt_text co strict is_row (n ++ t) (ONote s)
| ot_number_format n t w v : one_of n ["nf"; "numberformat"]%string -> assigns t w -> word w ->
    spelled number_format_names (to_lowercase co w) v -> opt_text co strict is_row (n ++ t) (ONumberFormat v)
| ot_text n t w v : one_of n ["t"; "text"]%string -> assigns t w -> word w ->
    spelled text_format_names (to_lowercase co w) v -> opt_text co strict is_row (n ++ t) (OText v)
| ot_var n t w : one_of n ["v"; "var"]%string -> assigns t w -> word w ->
    opt_text co strict is_row (n ++ t) (OVar w)
| ot_valign n t w v : one_of n ["va"; "valign"]%string -> assigns t w -> word w ->
    spelled valign_names (to_lowercase co w) v -> opt_text co strict is_row (n ++ t) (OValign v)
| ot_wrap n t w v : one_of n ["w"; "wrap"]%string -> assigns t w -> word w ->
    spelled wrap_names (to_lowercase co w) v -> opt_text co strict is_row (n ++ t) (OWrap v).

(** what may separate two options: spaces, or (an older notation) a slash after optional spaces *)
Definition opt_sep (strict : bool) (w : str) : Prop :=
  gap strict w \/ exists w', w = w' ++ [c_slash] /\ spaces w'.
(** the inside of an option list up to and including the closing brackets *)
Inductive options_text (co : cell_oracle) (strict is_row : bool) : str -> list opt -> Prop :=
| os_last w t o w' : spaces w -> opt_text co strict is_row t o -> spaces w' ->
    options_text co strict is_row (w ++ t ++ w' ++ lit "]]") [o]
| os_more w t o w' r os : spaces w -> opt_text co strict is_row t o -> opt_sep strict w' ->
    options_text co strict is_row r os -> options_text co strict is_row (w ++ t ++ w' ++ r) (o :: os).

(** the option lists in front of a cell's value: which are for the row, and their options *)
Inductive lists_text (co : cell_oracle) (strict : bool) : str -> list (bool * list opt) -> Prop :=
| ls_nil : lists_text co strict [] []
| ls_cell w t os r ls : spaces w -> options_text co strict false t os -> lists_text co strict r ls ->
    lists_text co strict (w ++ lit "[[" ++ t ++ r) ((false, os) :: ls)
| ls_row w t os r ls : spaces w -> options_text co strict true t os -> lists_text co strict r ls ->
    lists_text co strict (w ++ lit "![[" ++ t ++ r) ((true, os) :: ls).

(** ** What option lists mean *)
Definition row_opts (ls : list (bool * list opt)) : list opt := concat (map snd (filter fst ls)).
Definition cell_opts (ls : list (bool * list opt)) : list opt := concat (map snd (filter (fun x => negb (fst x)) ls)).
Definition last_var (os : list opt) (d : option str) : option str :=
  fold_left (fun acc o => match o with OVar v => Some v | _ => acc end) os d.
Definition last_fill (row : nat) (os : list opt) (d : option fill) : option fill :=
  fold_left (fun acc o => match o with OFill a => Some {| fill_amount := a; start_row := row |} | _ => acc end) os d.
(** applying options one after the other, stated option by option: the last assignment of an option
    wins, borders and text formats accumulate *)
Definition last_of {A} (sel : opt -> option A) (os : list opt) (d : A) : A :=
  fold_left (fun acc o => match sel o with Some v => v | None => acc end) os d.
Definition added {A} (eq : forall x y : A, {x = y} + {x <> y}) (sel : opt -> option A) (os : list opt) (d : list A) : list A :=
  fold_left (fun acc o => match sel o with Some v => if in_dec eq v acc then acc else acc ++ [v] | None => acc end) os d.
Definition border_side_dec (x y : border_side) : {x = y} + {x <> y}. decide equality. Defined.
Definition text_format_dec (x y : text_format) : {x = y} + {x <> y}. decide equality. Defined.
Definition apply_opts (os : list opt) (x : options) : options := {|
  border_color := last_of (fun o => match o with OBorderColor c => Some (Some c) | _ => None end) os (border_color x);
  border_style_ := last_of (fun o => match o with OBorderStyle c => Some c | _ => None end) os (border_style_ x);
  borders := added border_side_dec (fun o => match o with OBorder c => Some c | _ => None end) os (borders x);
  color := last_of (fun o => match o with OColor c => Some (Some c) | _ => None end) os (color x);
  validation := last_of (fun o => match o with OValidate c => Some (Some c) | _ => None end) os (validation x);
  font_color := last_of (fun o => match o with OFontColor c => Some (Some c) | _ => None end) os (font_color x);
  font_family := last_of (fun o => match o with OFontFamily c => Some (Some c) | _ => None end) os (font_family x);
  font_size := last_of (fun o => match o with OFontSize c => Some (Some c) | _ => None end) os (font_size x);
  horizontal_align_ := last_of (fun o => match o with OHalign c => Some c | _ => None end) os (horizontal_align_ x);
  lock := last_of (fun o => match o with OLock => Some true | _ => None end) os (lock x);
  note := last_of (fun o => match o with ONote c => Some (Some c) | _ => None end) os (note x);
  number_format_ := last_of (fun o => match o with ONumberFormat c => Some c | _ => None end) os (number_format_ x);
  text_formats := added text_format_dec (fun o => match o with OText c => Some c | _ => None end) os (text_formats x);
  text_wrap_ := last_of (fun o => match o with OWrap c => Some c | _ => None end) os (text_wrap_ x);
  vertical_align_ := last_of (fun o => match o with OValign c => Some c | _ => None end) os (vertical_align_ x) |}.

(** a row's list stands only in the first column, and a cell has at most one list of its own *)
Definition well_placed (column : nat) (ls : list (bool * list opt)) : Prop :=
  (column = 0 \/ filter fst ls = []) /\ length (filter (fun x => negb (fst x)) ls) <= 1.
(** the row lists in front of the cell's own list *)
Fixpoint before_cell (ls : list (bool * list opt)) : list (bool * list opt) :=
  match ls with
  | (true, os) :: ls => (true, os) :: before_cell ls
  | _ => []
  end.
(** no (further) option list begins here *)
Definition no_list (v : str) : Prop :=
  ~ (exists r, trim_start v = lit "[[" ++ r) /\ ~ (exists r, trim_start v = lit "![[" ++ r).
(** the row after the option lists of a cell *)
Definition row_after (f : field) (ls : list (bool * list opt)) (r : row) : row :=
  {| row_cells := row_cells r;
     row_options := apply_opts (row_opts ls) (row_options r);
     row_fill := last_fill (addr_y (f_address f)) (row_opts ls) (row_fill r);
     row_var := last_var (row_opts ls) (row_var r) |}.
(** the cell they are in front of: it starts from the options the row has at that point *)
Definition cell_after (f : field) (ls : list (bool * list opt)) (v : str) (r : row) : cell :=
  {| cell_ast := None; cell_field := f; parsed_value := trim v;
     cell_options := apply_opts (cell_opts ls) (apply_opts (row_opts (before_cell ls)) (row_options r));
     cell_var := last_var (cell_opts ls) None |}.
(** a field whose characters all have a recorded position, as the CSV reader builds them *)
Definition located (f : field) : Prop := length (f_value f) <= length (f_positions f).

(** what stands before any closing brackets is ASCII; after the last of them, and where there are none, anything may stand *)
Definition ascii_lists (s : str) : Prop := forall a b, s = a ++ lit "]]" ++ b -> forallb is_ascii a = true.

(** ** A whole row *)
(** how one field reads: its option lists and the text after them *)
Record reading := { rd_text : str; rd_lists : list (bool * list opt); rd_value : str }.
Definition reads (co : cell_oracle) (strict : bool) (f : field) (rd : reading) : Prop :=
  f_value f = rd_text rd ++ rd_value rd /\ lists_text co strict (rd_text rd) (rd_lists rd) /\ no_list (rd_value rd).
(** a formula is a text starting with an equals sign *)
Definition is_formula (v : str) : Prop := exists t, v = c_eq :: t.
Definition formula_of (co : cell_oracle) (v : str) (a : option node) : Prop :=
  (is_formula v /\ exists n, ast_parse (co_oracle co) false v = Ok n /\ a = Some n) \/ (~ is_formula v /\ a = None).
(** the row's options are those of the lists in its first field *)
Definition row_lists (rds : list reading) : list (bool * list opt) :=
  match rds with rd :: _ => rd_lists rd | [] => [] end.
Record cell_means (co : cell_oracle) (i : nat) (f : field) (rd : reading) (row_opts_ : options) (c : cell) : Prop := {
  cm_field : cell_field c = f;
  cm_value : parsed_value c = trim (rd_value rd);
  cm_formula : formula_of co (trim (rd_value rd)) (cell_ast c);
  cm_var : cell_var c = last_var (cell_opts (rd_lists rd)) None;
  cm_options : cell_options c = apply_opts (cell_opts (rd_lists rd))
     (if i =? 0 then apply_opts (row_opts (before_cell (rd_lists rd))) default_options else row_opts_);
}.
Record row_means (co : cell_oracle) (y : nat) (fs : list field) (rds : list reading) (r : row) : Prop := {
  rm_options : row_options r = apply_opts (row_opts (row_lists rds)) default_options;
  rm_fill : row_fill r = last_fill y (row_opts (row_lists rds)) None;
  rm_var : row_var r = last_var (row_opts (row_lists rds)) None;
  rm_length : length (row_cells r) = length fs;
  rm_cells : forall i f rd c, nth_error fs i = Some f -> nth_error rds i = Some rd -> nth_error (row_cells r) i = Some c ->
     cell_means co i f rd (row_options r) c;
}.
(** the fields of one record as the CSV reader numbers them *)
Definition record_fields (y : nat) (fs : list field) : Prop :=
  forall c f, nth_error fs c = Some f -> f_address f = {| addr_x := c; addr_y := y |} /\ located f.

(** ** Options whose value is one of a few words *)
Definition lower (s : str) : str := map (fun c => if ((65 <=? c) && (c <=? 90))%N then (c + 32)%N else c) s.
Definition choices : list (list string * table opt) :=
  [(["b"; "border"]%string, map (fun '(k, v) => (k, OBorder v)) border_names);
   (["bs"; "borderstyle"]%string, map (fun '(k, v) => (k, OBorderStyle v)) border_style_names);
   (["ha"; "halign"]%string, map (fun '(k, v) => (k, OHalign v)) halign_names);
   (["nf"; "numberformat"]%string, map (fun '(k, v) => (k, ONumberFormat v)) number_format_names);
   (["t"; "text"]%string, map (fun '(k, v) => (k, OText v)) text_format_names);
   (["va"; "valign"]%string, map (fun '(k, v) => (k, OValign v)) valign_names);
   (["w"; "wrap"]%string, map (fun '(k, v) => (k, OWrap v)) wrap_names)].
(** writing a text between single quotes *)
Definition escape (s : str) : str :=
  flat_map (fun c => if ((c =? c_squote) || (c =? c_backslash))%N then [c_backslash; c] else [c]) s.
