(** * DateTime: reading and showing dates and times (src/date_time).

    The code hands every text to chrono 0.4.38, so this file models the part of chrono that it reaches:
    [StrftimeItems] for the eleven formats used, [format::parse] for the items in them, [Parsed]'s setters and
    [to_naive_date]/[to_naive_time], and the Display of the three naive types (chrono's own sources, not part of /repo). *)
From Verif Require Import Base Targets.

(** ** chrono's items (format/mod.rs): the numeric ones, a literal, a blank, and %Z *)
Inductive item :=
| IYear | IYearMod100 | IMonth | IDay | IHour | IMinute | ISecond
| ILiteral (c : char) | ISpace | IZoneName.
(** chrono's StrftimeItems: a letter after a percent sign, a blank, or a character standing for itself.
    Simplification: the other letters do not occur in the formats and count as literals. *)
Definition letter_item (c : char) : item :=
  if (c =? 89)%N then IYear else if (c =? 121)%N then IYearMod100 else if (c =? 109)%N then IMonth
  else if (c =? 100)%N then IDay else if (c =? 72)%N then IHour else if (c =? 77)%N then IMinute
  else if (c =? 83)%N then ISecond else if (c =? 90)%N then IZoneName else ILiteral c.
Fixpoint strftime (f : str) : list item :=
  match f with
  | p :: t =>
      match t with
      | c :: r => if (p =? c_percent)%N then letter_item c :: strftime r else (if is_ws p then ISpace else ILiteral p) :: strftime t
      | [] => [if is_ws p then ISpace else ILiteral p]
      end
  | [] => []
  end.

(** chrono's Parsed (format/parsed.rs), the fields these items can set *)
Record parsed := { p_year : option Z; p_year_mod_100 : option Z; p_month : option Z; p_day : option Z;
                   p_hour : option Z; p_minute : option Z; p_second : option Z }.
Definition parsed_new : parsed :=
  {| p_year := None; p_year_mod_100 := None; p_month := None; p_day := None; p_hour := None; p_minute := None; p_second := None |}.
(** Parsed::set_*: a value out of the field's range is an error. Simplification: chrono also refuses a second, different value for
    the same field, which no format here can give. *)
Definition in_range (lo v hi : Z) : bool := ((lo <=? v) && (v <=? hi))%Z.
Definition set_item (i : item) (v : Z) (p : parsed) : option parsed :=
  match i with
  | IYear => if in_range (-2147483648) v 2147483647 then
      Some {| p_year := Some v; p_year_mod_100 := p_year_mod_100 p; p_month := p_month p; p_day := p_day p; p_hour := p_hour p; p_minute := p_minute p; p_second := p_second p |} else None
  | IYearMod100 => if in_range 0 v 99 then
      Some {| p_year := p_year p; p_year_mod_100 := Some v; p_month := p_month p; p_day := p_day p; p_hour := p_hour p; p_minute := p_minute p; p_second := p_second p |} else None
  | IMonth => if in_range 1 v 12 then
      Some {| p_year := p_year p; p_year_mod_100 := p_year_mod_100 p; p_month := Some v; p_day := p_day p; p_hour := p_hour p; p_minute := p_minute p; p_second := p_second p |} else None
  | IDay => if in_range 1 v 31 then
      Some {| p_year := p_year p; p_year_mod_100 := p_year_mod_100 p; p_month := p_month p; p_day := Some v; p_hour := p_hour p; p_minute := p_minute p; p_second := p_second p |} else None
  | IHour => if in_range 0 v 23 then
      Some {| p_year := p_year p; p_year_mod_100 := p_year_mod_100 p; p_month := p_month p; p_day := p_day p; p_hour := Some v; p_minute := p_minute p; p_second := p_second p |} else None
  | IMinute => if in_range 0 v 59 then
      Some {| p_year := p_year p; p_year_mod_100 := p_year_mod_100 p; p_month := p_month p; p_day := p_day p; p_hour := p_hour p; p_minute := Some v; p_second := p_second p |} else None
  | ISecond => if in_range 0 v 60 then
      Some {| p_year := p_year p; p_year_mod_100 := p_year_mod_100 p; p_month := p_month p; p_day := p_day p; p_hour := p_hour p; p_minute := p_minute p; p_second := Some v |} else None
  | _ => Some p
  end.

(** chrono's scan::number: at least one and at most [max] ASCII digits ([None]: no limit) *)
Fixpoint take_digits (max : nat) (s : str) : str * str :=
  match max, s with
  | S k, c :: r => if is_ascii_digit c then let (a, b) := take_digits k r in (c :: a, b) else ([], s)
  | _, _ => ([], s)
  end.
Definition scan_number (max : option nat) (s : str) : option (Z * str) :=
  let (a, r) := match max with Some k => take_digits k s | None => span is_ascii_digit s end in
  match a with [] => None | _ => Some (Z.of_N (digits_value a), r) end.
(** chrono's parse_internal (format/parse.rs): one item. A year may have a sign, then any number of digits; numbers may have blanks in
    front; %Z skips everything up to the next blank. *)
Definition parse_item (i : item) (s : str) (p : parsed) : option (str * parsed) :=
  match i with
  | ILiteral c => match s with x :: r => if (x =? c)%N then Some (r, p) else None | [] => None end
  | ISpace => Some (trim_start s, p)
  | IZoneName => Some (snd (span (fun c => negb (is_ws c)) s), p)
  | IYear =>
      let s := trim_start s in
      let n := match s with
               | c :: r => if (c =? c_minus)%N then option_map (fun '(v, r) => ((- v)%Z, r)) (scan_number None r)
                           else if (c =? c_plus)%N then scan_number None r else scan_number (Some 4) s
               | [] => None
               end in
      match n with Some (v, r) => option_map (fun p => (r, p)) (set_item i v p) | None => None end
  | _ =>
      match scan_number (Some 2) (trim_start s) with
      | Some (v, r) => option_map (fun p => (r, p)) (set_item i v p)
      | None => None
      end
  end.
Fixpoint parse_items (is : list item) (s : str) (p : parsed) : option (str * parsed) :=
  match is with
  | [] => Some (s, p)
  | i :: is => match parse_item i s p with Some (s, p) => parse_items is s p | None => None end
  end.
(** chrono's format::parse: nothing may be left over *)
Definition chrono_parse (f : string) (s : str) : option parsed :=
  match parse_items (strftime (lit f)) s parsed_new with Some ([], p) => Some p | _ => None end.

(** chrono's NaiveDate::from_ymd_opt: the years it can represent, and the lengths of the months *)
Definition month_days (y m : Z) : Z :=
  nth (Z.to_nat (m - 1)) [31; (if ((y mod 4 =? 0) && (negb (y mod 25 =? 0) || (y mod 16 =? 0)))%Z then 29 else 28); 31; 30; 31; 30; 31; 31; 30; 31; 30; 31]%Z 0%Z.
Definition ymd_ok (y m d : Z) : bool := in_range (-262143) y 262142 && in_range 1 m 12 && in_range 1 d (month_days y m).
(** Parsed::to_naive_date: a year of two digits below 70 is in this century, the others in the last *)
Definition to_naive_date (p : parsed) : option (Z * Z * Z) :=
  let year := match p_year p, p_year_mod_100 p with
              | Some y, _ => Some y
              | None, Some r => Some (if (r <? 70)%Z then r + 2000 else r + 1900)%Z
              | None, None => None
              end in
  match year, p_month p, p_day p with
  | Some y, Some m, Some d => if ymd_ok y m d then Some (y, m, d) else None
  | _, _, _ => None
  end.
(** Parsed::to_naive_time: the minute must be there, the second may be missing; second 60 is kept as a leap second *)
Definition to_naive_time (p : parsed) : option (Z * Z * Z) :=
  match p_hour p, p_minute p with
  | Some h, Some mi => Some (h, mi, match p_second p with Some s => s | None => 0%Z end)
  | _, _ => None
  end.

(** date_time/mod.rs 8-13 *)
Inductive date_time := DTDate (y m d : Z) | DTDateAndTime (y m d h mi s : Z) | DTTime (h mi s : Z).
(** date_time/try_from.rs 9-18 *)
Definition DATE_TIME : list string := ["%Y-%m-%d %H:%M:%S"; "%m/%d/%Y %H:%M:%S"; "%Y-%m-%d %H:%M"; "%m/%d/%Y %H:%M"]%string.
Definition DATE : list string := ["%y-%m-%d"; "%m/%d/%y"; "%Y-%m-%d"; "%m/%d/%Y"]%string.
Definition TIME : list string := ["%H:%M:%S.%Z"; "%H:%M:%S"; "%H:%M"]%string.
(** try_from.rs 20-28: the first format that reads the text *)
Fixpoint try_formats (read : parsed -> option date_time) (fs : list string) (s : str) : option date_time :=
  match fs with
  | [] => None
  | f :: fs =>
      match match chrono_parse f s with Some p => read p | None => None end with
      | Some d => Some d
      | None => try_formats read fs s
      end
  end.
(** NaiveDateTime::parse_from_str, NaiveDate::parse_from_str, NaiveTime::parse_from_str *)
Definition read_date_time (p : parsed) : option date_time :=
  match to_naive_date p, to_naive_time p with
  | Some (y, m, d), Some (h, mi, s) => Some (DTDateAndTime y m d h mi s)
  | _, _ => None
  end.
Definition read_date (p : parsed) : option date_time := option_map (fun '(y, m, d) => DTDate y m d) (to_naive_date p).
Definition read_time (p : parsed) : option date_time := option_map (fun '(h, mi, s) => DTTime h mi s) (to_naive_time p).
(** try_from.rs 30-51; [None] is the error Unable to parse date *)
Definition date_time_of (s : str) : option date_time :=
  match try_formats read_date_time DATE_TIME s with
  | Some d => Some d
  | None => match try_formats read_date DATE s with
            | Some d => Some d
            | None => try_formats read_time TIME s
            end
  end.

(** ** Display *)
(** a number in at least [k] characters, zeros in front *)
Definition pad (k : nat) (n : N) : str := let t := dec n in repeat 48%N (k - length t) ++ t.
(** chrono's Display of NaiveDate: four digits for the years 0 to 9999, else a sign and at least five characters *)
Definition show_year (y : Z) : str :=
  if in_range 0 y 9999 then pad 4 (Z.to_N y)
  else (if (y <? 0)%Z then c_minus else c_plus) :: pad 4 (Z.to_N (Z.abs y)).
Definition show_date (y m d : Z) : str := show_year y ++ [c_minus] ++ pad 2 (Z.to_N m) ++ [c_minus] ++ pad 2 (Z.to_N d).
Definition show_time (h mi s : Z) : str := pad 2 (Z.to_N h) ++ [c_colon] ++ pad 2 (Z.to_N mi) ++ [c_colon] ++ pad 2 (Z.to_N s).
(** date_time/display.rs 4-12 *)
Definition show_date_time (d : date_time) : str :=
  match d with
  | DTDate y m d => show_date y m d
  | DTDateAndTime y m d h mi s => show_date y m d ++ [c_space] ++ show_time h mi s
  | DTTime h mi s => show_time h mi s
  end.

(** What the cell model's [date_canon] stands for: the Display of the date read (Options.v keeps dates as these texts) *)
Definition chrono_canon (s : str) : option str := option_map show_date_time (date_time_of s).
(** What Targets.v's [serial] stands for: DateTime::distance_from_epoch (date_time/mod.rs 15-29) of the date with this Display; [None]
    is its unimplemented!() *)
Definition chrono_serial (t : str) : option Z :=
  match date_time_of t with Some (DTDate y m d) => Some (distance_from_epoch y m d) | _ => None end.
