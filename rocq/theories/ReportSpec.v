(** * ReportSpec: what it means for an error report to point at the right place. *)
From Coq Require Import Sorting.Sorted.
From Verif Require Import Base Csvp CsvpSpec Ast AstLexer AstParser SourceCode CellLexer CellParser.

(** Code whose string literals end on the line they start on. A string starts at a double quote and
    ends at the next one; a comment starts at a # outside strings and ends with its line. *)
Inductive reading := InCode | InString | InComment.
Fixpoint strings_closed (at_ : reading) (s : str) : bool :=
  match s with
  | [] => true
  | c :: r =>
      match at_ with
      | InCode => strings_closed (if (c =? c_dquote)%N then InString
                                  else if (c =? c_hash)%N then InComment else InCode) r
      | InString => if (c =? c_nl)%N then false
                    else strings_closed (if (c =? c_dquote)%N then InCode else InString) r
      | InComment => strings_closed (if (c =? c_nl)%N then InCode else InComment) r
      end
  end.
(** No line of code ends in [fn]. *)
Definition no_fn_at_line_end (s : str) : Prop :=
  forall a w b, s = a ++ lit "fn" ++ w ++ c_nl :: b -> forallb is_ws w = true -> False.

(** What a reported error shows stands at the beginning of [b]: a token in backticks, the first
    50 characters at most of what could not be read, or the end of the text. *)
Definition shown_at (e : parse_error) (b : str) : Prop :=
  (exists tok r, tok <> [] /\ pe_saw e = [c_backtick] ++ tok ++ [c_backtick] /\ b = tok ++ r)
  \/ (pe_kind e = EUnknownToken /\ b <> [] /\ ((exists r, b = pe_saw e ++ r) \/ exists r, pe_saw e = b ++ r))
  \/ (pe_saw e = lit "EOF" /\ pe_eof e = true /\ forallb is_ws b = true).

(** The characters of the CSV section a cell is read from: [idxs] are their indices, in order, and
    [raw] the characters; the cell's text is [raw] without the blanks at both ends. *)
Definition cell_chars (csv : str) (f : field) (raw : str) (idxs : list nat) : Prop :=
  f_value f = trim raw /\ StronglySorted lt idxs /\ map (nth_error csv) idxs = map Some raw.
(** Line [n] (from 0) of the file is the one that character [i] of its CSV section stands on, and
    column [col] (from 0) is where. A carriage return at the end of a line does not count as part of it. *)
Definition stands_at (text : str) (i n col : nat) : Prop :=
  exists ch line, nth_error (csv_section (source_code_new text)) i = Some ch
    /\ nth_error (lines_of text) n = Some line /\ (nth_error line col = Some ch \/ ch = c_cr).

(** How the CSV section of a file is read: comma separated, with the lines above it counted. *)
Definition csv_config (text : str) : config :=
  {| separator := c_comma; lines_above := length_of_code_section (source_code_new text) |}.
(** Where an error in a cell is reported. *)
Definition error_place (e : located_error) : position :=
  match le_error e with BadOptions c => ce_position c | BadFormula p => pe_position p end.
(** A line break is reported on the line it begins. *)
Definition line_break (ch : char) : nat := if (ch =? c_nl)%N then 1 else 0.
(** Columns are counted from 0 on the first line of the CSV section and from 1 on the others. *)
Definition column_shift (csv : str) (i : nat) : nat := if true_line csv i =? 0 then 0 else 1.

(** Columns counted in bytes: the length in UTF-8 of the text before, from the start of its last line. *)
Definition byte_tail (s : str) : nat := utf8_len (fst (span (fun c => negb (c =? c_nl)%N) (rev s))).
Definition byte_column (s : str) (i : nat) : nat := byte_tail (firstn i s).
(** All white space of the text is ASCII. *)
Definition plain_blanks (s : str) : bool := forallb (fun c => negb (is_ws c) || is_ascii c) s.
