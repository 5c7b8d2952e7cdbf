(** * TargetSpec: what spreadsheet programs make of what they are given (from their documentation, not from /repo). *)
From Coq Require Import QArith.
From Verif Require Import Base Ast Options Targets.
Open Scope nat_scope.

(** ** Colours *)
(** what is shown for a colour: Google's fractions as they are; an ARGB text is alpha, red, green, blue, two hexadecimal digits each *)
Definition two_hex (a b : char) : option N := match hex_digit a, hex_digit b with Some x, Some y => Some (16 * x + y)%N | _, _ => None end.
Definition shown_color (c : sent_color) : option rgb :=
  match c with
  | Fractions r g b => Some {| red := r; green := g; blue := b |}
  | Argb [_; _; r1; r2; g1; g2; b1; b2] =>
      match two_hex r1 r2, two_hex g1 g2, two_hex b1 b2 with
      | Some r, Some g, Some b => Some {| red := r; green := g; blue := b |}
      | _, _, _ => None
      end
  | Argb _ => None
  end.
Definition byte_color (c : rgb) : Prop := (red c < 256 /\ green c < 256 /\ blue c < 256)%N.

(** ** What words mean, to the Google Sheets API (its enumerations HorizontalAlign, VerticalAlign, WrapStrategy, NumberFormatType, Style)
    and in an Excel file (ST_HorizontalAlignment, ST_VerticalAlignment, ST_BorderStyle; the number formats are the names of umya's constants) *)
Definition means {A} (table : list (string * A)) (w : str) : option A :=
  option_map snd (find (fun e => str_eqb (lit (fst e)) w) table).
Definition api_halign := [("LEFT", HLeft); ("CENTER", HCenter); ("RIGHT", HRight)]%string.
Definition api_valign := [("TOP", VTop); ("MIDDLE", VCenter); ("BOTTOM", VBottom)]%string.
Definition api_wrap := [("OVERFLOW_CELL", WOverflow); ("CLIP", WClip); ("WRAP", WWrap)]%string.
Definition api_number := [("TEXT", NFText); ("NUMBER", NFNumber); ("PERCENT", NFPercent); ("CURRENCY", NFCurrency); ("DATE", NFDate); ("TIME", NFTime);
  ("DATE_TIME", NFDateTime); ("SCIENTIFIC", NFScientific)]%string.
Definition api_border := [("DOTTED", BDotted); ("DASHED", BDashed); ("SOLID", BSolid); ("SOLID_MEDIUM", BSolidMedium); ("SOLID_THICK", BSolidThick); ("DOUBLE", BDouble)]%string.
Definition ooxml_halign := [("left", HLeft); ("center", HCenter); ("right", HRight)]%string.
Definition ooxml_valign := [("top", VTop); ("center", VCenter); ("bottom", VBottom)]%string.
Definition ooxml_border := [("dotted", BDotted); ("dashed", BDashed); ("thin", BSolid); ("medium", BSolidMedium); ("thick", BSolidThick); ("double", BDouble)]%string.
Definition umya_number := [("FORMAT_TEXT", NFText); ("FORMAT_NUMBER", NFNumber); ("FORMAT_PERCENTAGE", NFPercent); ("FORMAT_CURRENCY_USD", NFCurrency);
  ("FORMAT_DATE_YYYYMMDD", NFDate); ("FORMAT_DATE_TIME1", NFTime); ("FORMAT_DATE_DATETIME", NFDateTime); ("0.00E+00", NFScientific)]%string.
Definition api_condition : list str := map lit ["NUMBER_GREATER"; "NUMBER_GREATER_THAN_EQ"; "NUMBER_LESS"; "NUMBER_LESS_THAN_EQ"; "NUMBER_EQ"; "NUMBER_NOT_EQ";
  "NUMBER_BETWEEN"; "NUMBER_NOT_BETWEEN"; "TEXT_CONTAINS"; "TEXT_NOT_CONTAINS"; "TEXT_STARTS_WITH"; "TEXT_ENDS_WITH"; "TEXT_EQ"; "TEXT_IS_EMAIL"; "TEXT_IS_URL";
  "DATE_EQ"; "DATE_BEFORE"; "DATE_AFTER"; "DATE_ON_OR_BEFORE"; "DATE_ON_OR_AFTER"; "DATE_BETWEEN"; "DATE_NOT_BETWEEN"; "DATE_IS_VALID"; "ONE_OF_RANGE"; "ONE_OF_LIST";
  "BLANK"; "NOT_BLANK"; "CUSTOM_FORMULA"; "BOOLEAN"; "TEXT_NOT_EQ"; "DATE_NOT_EQ"; "FILTER_EXPRESSION"]%string.
(** RelativeDate: a date itself is not one of them *)
Definition api_relative_date : list str := map lit ["PAST_YEAR"; "PAST_MONTH"; "PAST_WEEK"; "YESTERDAY"; "TODAY"; "TOMORROW"]%string.

(** ** Which numbers a rule admits: the documented meaning, and the meaning of an Excel rule of type Decimal *)
Definition admits (v : data_validation) (x : Q) : Prop :=
  match v with
  | DVNumberBetween a b => inject_Z a <= x /\ x <= inject_Z b
  | DVNumberNotBetween a b => ~ (inject_Z a <= x /\ x <= inject_Z b)
  | DVNumberEqualTo a => x == inject_Z a
  | DVNumberNotEqualTo a => ~ x == inject_Z a
  | DVNumberGreaterThan a => inject_Z a < x
  | DVNumberGreaterThanOrEqualTo a => inject_Z a <= x
  | DVNumberLessThan a => x < inject_Z a
  | DVNumberLessThanOrEqualTo a => x <= inject_Z a
  | _ => True
  end%Q.
Definition number_rule (v : data_validation) : bool :=
  match v with
  | DVNumberBetween _ _ | DVNumberNotBetween _ _ | DVNumberEqualTo _ | DVNumberNotEqualTo _ | DVNumberGreaterThan _
  | DVNumberGreaterThanOrEqualTo _ | DVNumberLessThan _ | DVNumberLessThanOrEqualTo _ => true
  | _ => false
  end.
(** the numbers that a rule with operator [op] and the formulas [f], [g] admits; a formula that is an integer literal has its value *)
Inductive literal : str -> Z -> Prop := literal_intro z : literal (show_Z z) z.
Inductive excel_admits : xvalidation -> Q -> Prop :=
| xa_between v f g a b x : xv_type v = lit "Decimal" -> xv_operator v = Some (lit "Between") -> xv_formula1 v = f -> xv_formula2 v = Some g ->
    literal f a -> literal g b -> (inject_Z a <= x /\ x <= inject_Z b)%Q -> excel_admits v x
| xa_not_between v f g a b x : xv_type v = lit "Decimal" -> xv_operator v = Some (lit "NotBetween") -> xv_formula1 v = f -> xv_formula2 v = Some g ->
    literal f a -> literal g b -> ~ (inject_Z a <= x /\ x <= inject_Z b)%Q -> excel_admits v x
| xa_equal v f a x : xv_type v = lit "Decimal" -> xv_operator v = Some (lit "Equal") -> xv_formula1 v = f -> literal f a -> (x == inject_Z a)%Q -> excel_admits v x
| xa_not_equal v f a x : xv_type v = lit "Decimal" -> xv_operator v = Some (lit "NotEqual") -> xv_formula1 v = f -> literal f a -> ~ (x == inject_Z a)%Q -> excel_admits v x
| xa_greater v f a x : xv_type v = lit "Decimal" -> xv_operator v = Some (lit "GreaterThan") -> xv_formula1 v = f -> literal f a -> (inject_Z a < x)%Q -> excel_admits v x
| xa_greater_equal v f a x : xv_type v = lit "Decimal" -> xv_operator v = Some (lit "GreaterThanOrEqual") -> xv_formula1 v = f -> literal f a -> (inject_Z a <= x)%Q -> excel_admits v x
| xa_less v f a x : xv_type v = lit "Decimal" -> xv_operator v = Some (lit "LessThan") -> xv_formula1 v = f -> literal f a -> (x < inject_Z a)%Q -> excel_admits v x
| xa_less_equal v f a x : xv_type v = lit "Decimal" -> xv_operator v = Some (lit "LessThanOrEqual") -> xv_formula1 v = f -> literal f a -> (x <= inject_Z a)%Q -> excel_admits v x.

(** ** Dates *)
Definition leap (y : Z) : bool := ((y mod 4 =? 0) && (negb (y mod 100 =? 0) || (y mod 400 =? 0)))%Z%bool.
Definition days_in_month (y m : Z) : Z :=
  (if (m =? 2) then if leap y then 29 else 28 else if (m =? 4) || (m =? 6) || (m =? 9) || (m =? 11) then 30 else 31)%Z.
Definition valid_date (y m d : Z) : Prop := (1 <= m <= 12 /\ 1 <= d <= days_in_month y m)%Z.
Definition next_day (t : Z * Z * Z) : Z * Z * Z :=
  let '(y, m, d) := t in
  (if d <? days_in_month y m then (y, m, d + 1) else if m <? 12 then (y, m + 1, 1) else (y + 1, 1, 1))%Z.
(** Excel's serial numbers from 1 March 1900 on, which is number 61 *)
Inductive excel_serial : Z * Z * Z -> Z -> Prop :=
| es_first : excel_serial (1900, 3, 1)%Z 61
| es_next t n : excel_serial t n -> excel_serial (next_day t) (n + 1).

(** ** The items of an Excel list rule: the text between the quotes, cut at the commas, blanks around an item ignored *)
Fixpoint cut_at (c : char) (s : str) (cur : str) : list str :=
  match s with
  | [] => [cur]
  | x :: s => if (x =? c)%N then cur :: cut_at c s [] else cut_at c s (cur ++ [x])
  end.
Fixpoint drop_blanks (s : str) : str := match s with c :: r => if (c =? c_space)%N then drop_blanks r else s | [] => [] end.
Definition excel_items (formula1 : str) : option (list str) :=
  match formula1, rev formula1 with
  | q :: body, q' :: _ => if ((q =? c_dquote) && (q' =? c_dquote))%N then Some (map drop_blanks (cut_at c_comma (removelast body) [])) else None
  | _, _ => None
  end.
(** a text as a string literal of a spreadsheet formula *)
Definition formula_literal (t : str) : str := [c_dquote] ++ flat_map (fun c => if (c =? c_dquote)%N then [c; c] else [c]) t ++ [c_dquote].
