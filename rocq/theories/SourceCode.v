(** * SourceCode: model of /repo/src/source_code (mod.rs, errors.rs).
    Simplifications: the filename is omitted; [colored] is taken with colours disabled (the text
    inside the escape codes). *)
From Verif Require Import Base Csvp.

(** Rust [str::lines]: split after each newline; the newline and one carriage return before it
    are removed; a final empty piece is not a line. *)
Definition strip_cr (l : str) : str :=
  match rev l with
  | c :: r => if (c =? c_cr)%N then rev r else l
  | [] => l
  end.
Fixpoint lines_aux (s cur : str) : list str :=
  match s with
  | [] => match cur with [] => [] | _ => [cur] end
  | c :: r => if (c =? c_nl)%N then strip_cr cur :: lines_aux r []
              else lines_aux r (cur ++ [c])
  end.
Definition lines_of (s : str) : list str := lines_aux s [].

(** The regex ^\s*---\s*$ of src/source_code/mod.rs:43 on one line: white space, three dashes,
    white space. *)
Definition dashes : str := [c_minus; c_minus; c_minus].
Definition is_separator_line (l : str) : bool :=
  match strip_prefix dashes (trim_start l) with
  | Some rest => forallb is_ws rest
  | None => false
  end.

(** [Iterator::position] *)
Fixpoint position_of {A} (f : A -> bool) (l : list A) : option nat :=
  match l with
  | [] => None
  | x :: r => if f x then Some 0 else option_map S (position_of f r)
  end.

(** src/source_code/mod.rs:18-27 [SourceCode] *)
Record source_code := {
  sc_lines : nat;
  length_of_code_section : nat;
  length_of_csv_section : nat;
  code_section : option str;
  csv_section : str;
  original : str
}.

(** src/source_code/mod.rs:34-72 [SourceCode::new] *)
Definition source_code_new (input : str) : source_code :=
  let ls := lines_of input in
  match position_of is_separator_line ls with
  | Some p =>
      let csv_lines := skipn (p + 1) ls in
      let code_lines := firstn p ls in
      {| sc_lines := length ls;
         length_of_code_section := length code_lines + 1;
         length_of_csv_section := length csv_lines;
         code_section := Some (join [c_nl] code_lines);
         csv_section := join [c_nl] csv_lines;
         original := input |}
  | None =>
      {| sc_lines := length ls;
         length_of_code_section := 0;
         length_of_csv_section := length ls;
         code_section := None;
         csv_section := input;
         original := input |}
  end.

(** src/source_code/errors.rs:11 *)
Definition LINES_IN_ERROR_CONTEXT : nat := 3.

(** Rust format spec [{: <width$}]: pad on the right with blanks. *)
Definition pad_right (w : nat) (s : str) : str := s ++ repeat c_space (w - length s).

(** src/source_code/errors.rs:134-148: the numbering loop; [i] is the enumerate index and
    [line_count] the mutable counter. *)
Fixpoint number_lines (skip_on width i line_count : nat) (ls : list str) : list str :=
  match ls with
  | [] => []
  | l :: r =>
      if i =? skip_on then
        ([c_space] ++ pad_right width [c_space] ++ [c_colon; c_space] ++ l)
        :: number_lines skip_on width (S i) line_count r
      else
        ([c_space] ++ pad_right width (dec (N.of_nat (S line_count))) ++ [c_colon; c_space] ++ l)
        :: number_lines skip_on width (S i) (S line_count) r
  end.

(** Rust slice [&l[a..b]]; [None] is the out-of-range panic. *)
Definition slice {A} (l : list A) (a b : nat) : option (list A) :=
  if (a <=? b) && (b <=? length l) then Some (firstn (b - a) (skipn a l)) else None.

(** src/source_code/errors.rs:83-149 [highlight_line] *)
Definition highlight_line (sc : source_code) (pos : position) : outcome unit (list str) :=
  let line_number := line_number pos in
  let line_offset := line_offset pos in
  let lines := lines_of (original sc) in
  if length lines <=? line_number then Ok []
  else
    let start_index := line_number - LINES_IN_ERROR_CONTEXT in
    let end_index := Nat.min (length lines) (line_number + LINES_IN_ERROR_CONTEXT + 1) in
    match slice lines start_index line_number, nth_error lines line_number,
          slice lines (line_number + 1) end_index with
    | Some before, Some line, Some after =>
        let lines_out := before ++ [line] in
        let skip_numbering_on := length lines_out in
        let lines_out := lines_out ++ [repeat c_minus line_offset ++ [c_caret]] ++ after in
        let longest_line_number := length (dec (N.of_nat (line_number + LINES_IN_ERROR_CONTEXT))) in
        Ok (number_lines skip_numbering_on longest_line_number 0 start_index lines_out)
    | _, _, _ => Panic
    end.
