(** * Options: model of src/rgb, src/cell_options and the structs of src/cell and src/row. *)
From Verif Require Import Base Csvp Ast AstParser.

(** Library behaviour left abstract for cells, beside [oracle]:
    - [u_lower c]: [char::to_lowercase] of a character that is not ASCII (the context dependent
      final sigma is not distinguished);
    - [date_canon s]: the Display text of the date chrono reads from [s] with the formats of
      src/date_time/try_from.rs 9-18, [None] when none of them fits;
    - [a1_canon s]: the Display text of [a1::new(s)], [None] when it is rejected. *)
Record cell_oracle := {
  co_oracle : oracle;
  u_lower : char -> str;
  date_canon : str -> option str;
  a1_canon : str -> option str;
}.
Definition co_unicode (co : cell_oracle) : unicode := o_unicode (co_oracle co).
(** [str::to_lowercase] *)
Definition to_lowercase (co : cell_oracle) (s : str) : str :=
  flat_map (fun c => if is_ascii c then [ascii_lower_char c] else u_lower co c) s.

(** ** Colours: src/rgb *)
(** rgb/mod.rs 11-16; components are [u8], i.e. at most 255 *)
Record rgb := { red : N; green : N; blue : N }.
Definition hex_digit (c : char) : option N :=
  if is_ascii_digit c then Some (c - 48)%N
  else if ((65 <=? c) && (c <=? 70))%N then Some (c - 55)%N
  else if ((97 <=? c) && (c <=? 102))%N then Some (c - 87)%N
  else None.
Fixpoint hex_value (s : str) (acc : N) : option N :=
  match s with
  | [] => Some acc
  | c :: r => match hex_digit c with Some d => hex_value r (acc * 16 + d)%N | None => None end
  end.
(** [u8::from_str_radix(s, 16)]: an optional plus sign before at least one digit *)
Definition u8_from_hex (s : str) : option N :=
  let digits := match s with
                | c :: (_ :: _) as r => if (c =? c_plus)%N then tl s else s
                | _ => s
                end in
  match digits with
  | [] => None
  | _ => match hex_value digits 0 with
         | Some v => if (v <=? 255)%N then Some v else None
         | None => None
         end
  end.
(** rgb/try_from.rs 5-16 *)
Definition string_to_hex (s : str) (double_it : bool) : option N :=
  u8_from_hex (if double_it then s ++ s else s).
(** rgb/try_from.rs 18-52; the slices are evaluated one by one, each followed by its conversion, so a
    conversion error in an earlier slice hides a panic in a later one *)
Definition parse_slices (w : nat) (dbl : bool) (s : str) : outcome unit rgb :=
  match byte_split w s with
  | None => Panic
  | Some (a, s1) =>
      match string_to_hex a dbl with
      | None => Err tt
      | Some r =>
          match byte_split w s1 with
          | None => Panic
          | Some (b, s2) =>
              match string_to_hex b dbl with
              | None => Err tt
              | Some g =>
                  match byte_split w s2 with
                  | None => Panic
                  | Some (c, _) =>
                      match string_to_hex c dbl with
                      | None => Err tt
                      | Some bl => Ok {| red := r; green := g; blue := bl |}
                      end
                  end
              end
          end
      end
  end.
Definition parse_rgb (s : str) : outcome unit rgb :=
  let body := match s with c :: r => if (c =? c_hash)%N then r else s | [] => s end in
  if utf8_len body =? 6 then parse_slices 2 false body
  else if utf8_len body =? 3 then parse_slices 1 true body
  else Err tt.
Definition hex_char (n : N) : char := (if n <? 10 then n + 48 else n + 55)%N.
(** [{:02X}] of a [u8] *)
Definition hex2 (n : N) : str := [hex_char (n / 16); hex_char (n mod 16)]%N.
(** rgb/display.rs 4-8 *)
Definition show_rgb (c : rgb) : str := c_hash :: hex2 (red c) ++ hex2 (green c) ++ hex2 (blue c).
(** rgb/mod.rs 23-25 *)
Definition rgb_to_rgba (c : rgb) : str := hex2 (red c) ++ hex2 (green c) ++ hex2 (blue c) ++ lit "FF".

(** ** Enumerations: src/cell_options *)
Inductive border_side := BAll | BTop | BBottom | BLeft | BRight.
Inductive border_style := BDashed | BDotted | BDouble | BSolid | BSolidMedium | BSolidThick.
Inductive horizontal_align := HCenter | HLeft | HRight.
Inductive vertical_align := VBottom | VCenter | VTop.
Inductive number_format := NFCurrency | NFDate | NFDateTime | NFNumber | NFPercent | NFText | NFTime | NFScientific.
Inductive text_format := TFBold | TFItalic | TFStrikethrough | TFUnderline.
Inductive text_wrap := WWrap | WOverflow | WClip.

(** a match of a string against string patterns; the first pattern that is equal wins *)
Fixpoint match_str {A} (s : str) (arms : list (list str * A)) : option A :=
  match arms with
  | [] => None
  | (ps, v) :: r => if str_in s ps then Some v else match_str s r
  end.
(** border_side.rs 20-33 *)
Definition border_side_of (s : str) : option border_side :=
  match_str s [([lit "a"; lit "all"], BAll); ([lit "t"; lit "top"], BTop);
               ([lit "b"; lit "bottom"], BBottom); ([lit "l"; lit "left"], BLeft);
               ([lit "r"; lit "right"], BRight)].
(** border_style.rs 20-41 *)
Definition border_style_of (s : str) : option border_style :=
  match_str s [([lit "dash"; lit "dashed"], BDashed); ([lit "dot"; lit "dotted"], BDotted);
               ([lit "dbl"; lit "double"], BDouble); ([lit "1"; lit "solid"], BSolid);
               ([lit "2"; lit "solid_medium"], BSolidMedium); ([lit "3"; lit "solid_thick"], BSolidThick)].
(** horizontal_align.rs 16-27 *)
Definition horizontal_align_of (s : str) : option horizontal_align :=
  match_str s [([lit "c"; lit "center"], HCenter); ([lit "l"; lit "left"], HLeft);
               ([lit "r"; lit "right"], HRight)].
(** vertical_align.rs 17-28 *)
Definition vertical_align_of (s : str) : option vertical_align :=
  match_str s [([lit "b"; lit "bottom"], VBottom); ([lit "c"; lit "center"], VCenter);
               ([lit "t"; lit "top"], VTop)].
(** number_format.rs 21-46 *)
Definition number_format_of (s : str) : option number_format :=
  match_str s [([lit "c"; lit "currency"], NFCurrency); ([lit "d"; lit "date"], NFDate);
               ([lit "dt"; lit "datetime"], NFDateTime); ([lit "n"; lit "number"], NFNumber);
               ([lit "p"; lit "percent"], NFPercent); ([lit "text"], NFText);
               ([lit "t"; lit "time"], NFTime); ([lit "s"; lit "scientific"], NFScientific)].
(** text_format.rs 16-33 *)
Definition text_format_of (s : str) : option text_format :=
  match_str s [([lit "b"; lit "bold"], TFBold); ([lit "i"; lit "italic"], TFItalic);
               ([lit "s"; lit "strikethrough"], TFStrikethrough); ([lit "u"; lit "underline"], TFUnderline)].
(** text_wrap.rs 16-27 *)
Definition text_wrap_of (s : str) : option text_wrap :=
  match_str s [([lit "c"; lit "clip"], WClip); ([lit "o"; lit "overflow"], WOverflow);
               ([lit "w"; lit "wrap"], WWrap)].

(** Equality of the two enumerations that are kept in a HashSet (derived Eq + Hash). *)
Definition border_side_eqb (a b : border_side) : bool :=
  match a, b with
  | BAll, BAll | BTop, BTop | BBottom, BBottom | BLeft, BLeft | BRight, BRight => true
  | _, _ => false
  end.
Definition text_format_eqb (a b : text_format) : bool :=
  match a, b with
  | TFBold, TFBold | TFItalic, TFItalic | TFStrikethrough, TFStrikethrough
  | TFUnderline, TFUnderline => true
  | _, _ => false
  end.
(** [HashSet::insert] on a list without repetitions *)
Definition insert_by {A} (eqb : A -> A -> bool) (x : A) (l : list A) : list A :=
  if existsb (eqb x) l then l else l ++ [x].

(** ** Data validation: cell_options/data_validation.rs 10-36. A date is its Display text, an A1 range
    its Display text. *)
Inductive data_validation :=
| DVCustom (s : str)
| DVDateAfter (d : str) | DVDateBefore (d : str) | DVDateBetween (a b : str) | DVDateEqualTo (d : str)
| DVDateIsValid | DVDateNotBetween (a b : str) | DVDateOnOrAfter (d : str) | DVDateOnOrBefore (d : str)
| DVNumberBetween (a b : Z) | DVNumberEqualTo (a : Z) | DVNumberGreaterThan (a : Z)
| DVNumberGreaterThanOrEqualTo (a : Z) | DVNumberLessThan (a : Z) | DVNumberLessThanOrEqualTo (a : Z)
| DVNumberNotBetween (a b : Z) | DVNumberNotEqualTo (a : Z)
| DVTextContains (s : str) | DVTextDoesNotContain (s : str) | DVTextEqualTo (s : str)
| DVTextIsValidEmail | DVTextIsValidUrl
| DVValueInList (l : list node) | DVValueInRange (a1 : str).

(** ** The options shared by rows and cells: the common fields of row/mod.rs 12-31 and
    cell/mod.rs 17-37. The model groups them in one record; Rust repeats them in both structs. *)
Record options := {
  border_color : option rgb;
  border_style_ : border_style;
  borders : list border_side;
  color : option rgb;
  validation : option data_validation;
  font_color : option rgb;
  font_family : option str;
  font_size : option nat;
  horizontal_align_ : horizontal_align;
  lock : bool;
  note : option str;
  number_format_ : number_format;
  text_formats : list text_format;
  text_wrap_ : text_wrap;
  vertical_align_ : vertical_align;
}.
(** the #[derive(Default)] of Row with the #[default] variants of the enumerations *)
Definition default_options : options := {|
  border_color := None; border_style_ := BSolid; borders := []; color := None; validation := None;
  font_color := None; font_family := None; font_size := None; horizontal_align_ := HCenter;
  lock := false; note := None; number_format_ := NFText; text_formats := []; text_wrap_ := WWrap;
  vertical_align_ := VCenter |}.

(** cell/mod.rs 17-37 *)
Record cell := {
  cell_ast : option node;
  cell_field : field;
  parsed_value : str;
  cell_options : options;
  cell_var : option str;
}.
(** row/mod.rs 12-31 *)
Record row := {
  row_cells : list cell;
  row_options : options;
  row_fill : option fill;
  row_var : option str;
}.
(** row/mod.rs 11: Default *)
Definition default_row : row :=
  {| row_cells := []; row_options := default_options; row_fill := None; row_var := None |}.
(** cell/mod.rs 83-106 *)
Definition cell_default_from (r : row) (f : field) : cell :=
  {| cell_ast := None; cell_field := f; parsed_value := []; cell_options := row_options r; cell_var := None |}.
(** cell/display.rs 4-14 *)
Definition show_cell (c : cell) : str :=
  match cell_ast c with Some a => c_eq :: show a | None => parsed_value c end.
(** ** Assignments to one option: the macros of cell_parser/mod.rs 25-56 (which of row and cell they
    write to is decided in CellParser.v) *)
Definition set_border_color v o := {| border_color := Some v; border_style_ := border_style_ o; borders := borders o; color := color o; validation := validation o; font_color := font_color o; font_family := font_family o; font_size := font_size o; horizontal_align_ := horizontal_align_ o; lock := lock o; note := note o; number_format_ := number_format_ o; text_formats := text_formats o; text_wrap_ := text_wrap_ o; vertical_align_ := vertical_align_ o |}.
Definition set_border_style v o := {| border_color := border_color o; border_style_ := v; borders := borders o; color := color o; validation := validation o; font_color := font_color o; font_family := font_family o; font_size := font_size o; horizontal_align_ := horizontal_align_ o; lock := lock o; note := note o; number_format_ := number_format_ o; text_formats := text_formats o; text_wrap_ := text_wrap_ o; vertical_align_ := vertical_align_ o |}.
Definition insert_border v o := {| border_color := border_color o; border_style_ := border_style_ o; borders := insert_by border_side_eqb v (borders o); color := color o; validation := validation o; font_color := font_color o; font_family := font_family o; font_size := font_size o; horizontal_align_ := horizontal_align_ o; lock := lock o; note := note o; number_format_ := number_format_ o; text_formats := text_formats o; text_wrap_ := text_wrap_ o; vertical_align_ := vertical_align_ o |}.
Definition set_color v o := {| border_color := border_color o; border_style_ := border_style_ o; borders := borders o; color := Some v; validation := validation o; font_color := font_color o; font_family := font_family o; font_size := font_size o; horizontal_align_ := horizontal_align_ o; lock := lock o; note := note o; number_format_ := number_format_ o; text_formats := text_formats o; text_wrap_ := text_wrap_ o; vertical_align_ := vertical_align_ o |}.
Definition set_validation v o := {| border_color := border_color o; border_style_ := border_style_ o; borders := borders o; color := color o; validation := Some v; font_color := font_color o; font_family := font_family o; font_size := font_size o; horizontal_align_ := horizontal_align_ o; lock := lock o; note := note o; number_format_ := number_format_ o; text_formats := text_formats o; text_wrap_ := text_wrap_ o; vertical_align_ := vertical_align_ o |}.
Definition set_font_color v o := {| border_color := border_color o; border_style_ := border_style_ o; borders := borders o; color := color o; validation := validation o; font_color := Some v; font_family := font_family o; font_size := font_size o; horizontal_align_ := horizontal_align_ o; lock := lock o; note := note o; number_format_ := number_format_ o; text_formats := text_formats o; text_wrap_ := text_wrap_ o; vertical_align_ := vertical_align_ o |}.
Definition set_font_family v o := {| border_color := border_color o; border_style_ := border_style_ o; borders := borders o; color := color o; validation := validation o; font_color := font_color o; font_family := Some v; font_size := font_size o; horizontal_align_ := horizontal_align_ o; lock := lock o; note := note o; number_format_ := number_format_ o; text_formats := text_formats o; text_wrap_ := text_wrap_ o; vertical_align_ := vertical_align_ o |}.
Definition set_font_size v o := {| border_color := border_color o; border_style_ := border_style_ o; borders := borders o; color := color o; validation := validation o; font_color := font_color o; font_family := font_family o; font_size := Some v; horizontal_align_ := horizontal_align_ o; lock := lock o; note := note o; number_format_ := number_format_ o; text_formats := text_formats o; text_wrap_ := text_wrap_ o; vertical_align_ := vertical_align_ o |}.
Definition set_horizontal_align v o := {| border_color := border_color o; border_style_ := border_style_ o; borders := borders o; color := color o; validation := validation o; font_color := font_color o; font_family := font_family o; font_size := font_size o; horizontal_align_ := v; lock := lock o; note := note o; number_format_ := number_format_ o; text_formats := text_formats o; text_wrap_ := text_wrap_ o; vertical_align_ := vertical_align_ o |}.
Definition set_lock o := {| border_color := border_color o; border_style_ := border_style_ o; borders := borders o; color := color o; validation := validation o; font_color := font_color o; font_family := font_family o; font_size := font_size o; horizontal_align_ := horizontal_align_ o; lock := true; note := note o; number_format_ := number_format_ o; text_formats := text_formats o; text_wrap_ := text_wrap_ o; vertical_align_ := vertical_align_ o |}.
Definition set_note v o := {| border_color := border_color o; border_style_ := border_style_ o; borders := borders o; color := color o; validation := validation o; font_color := font_color o; font_family := font_family o; font_size := font_size o; horizontal_align_ := horizontal_align_ o; lock := lock o; note := Some v; number_format_ := number_format_ o; text_formats := text_formats o; text_wrap_ := text_wrap_ o; vertical_align_ := vertical_align_ o |}.
Definition set_number_format v o := {| border_color := border_color o; border_style_ := border_style_ o; borders := borders o; color := color o; validation := validation o; font_color := font_color o; font_family := font_family o; font_size := font_size o; horizontal_align_ := horizontal_align_ o; lock := lock o; note := note o; number_format_ := v; text_formats := text_formats o; text_wrap_ := text_wrap_ o; vertical_align_ := vertical_align_ o |}.
Definition insert_text_format v o := {| border_color := border_color o; border_style_ := border_style_ o; borders := borders o; color := color o; validation := validation o; font_color := font_color o; font_family := font_family o; font_size := font_size o; horizontal_align_ := horizontal_align_ o; lock := lock o; note := note o; number_format_ := number_format_ o; text_formats := insert_by text_format_eqb v (text_formats o); text_wrap_ := text_wrap_ o; vertical_align_ := vertical_align_ o |}.
Definition set_text_wrap v o := {| border_color := border_color o; border_style_ := border_style_ o; borders := borders o; color := color o; validation := validation o; font_color := font_color o; font_family := font_family o; font_size := font_size o; horizontal_align_ := horizontal_align_ o; lock := lock o; note := note o; number_format_ := number_format_ o; text_formats := text_formats o; text_wrap_ := v; vertical_align_ := vertical_align_ o |}.
Definition set_vertical_align v o := {| border_color := border_color o; border_style_ := border_style_ o; borders := borders o; color := color o; validation := validation o; font_color := font_color o; font_family := font_family o; font_size := font_size o; horizontal_align_ := horizontal_align_ o; lock := lock o; note := note o; number_format_ := number_format_ o; text_formats := text_formats o; text_wrap_ := text_wrap_ o; vertical_align_ := v |}.
