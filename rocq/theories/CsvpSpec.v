(** * CsvpSpec: what a CSV document is, independently of the parser.

    A document is described by its layout (how it is typed) and denotes a table of texts. *)
From Verif Require Import Base.

(** How one cell is typed. *)
Inductive cell_src :=
| Bare (pieces : list str)
    (* unquoted text; the pieces are separated by backslash-newline line continuations *)
| Quoted (lead text trail : str).
    (* "text" in double quotes, inner double quotes doubled, white space around *)

(** A line of the document: a record or a comment. *)
Inductive item :=
| Record_ (cells : list cell_src)
| Comment (text : str).

Record document := {
  blank_lines : nat;          (* empty lines at the top of the file *)
  items : list item;
  final_newline : bool        (* is there a newline after the last item? *)
}.

Definition continuation : str := [c_backslash; c_nl].

(** Doubling of quotes in a quoted cell. *)
Fixpoint double_quotes (s : str) : str :=
  match s with
  | [] => []
  | c :: r => if (c =? c_dquote)%N then c :: c :: double_quotes r else c :: double_quotes r
  end.

(** The text of a document. *)
Definition render_cell (c : cell_src) : str :=
  match c with
  | Bare pieces => join continuation pieces
  | Quoted lead text trail => lead ++ [c_dquote] ++ double_quotes text ++ [c_dquote] ++ trail
  end.
Definition render_item (sep : char) (i : item) : str :=
  match i with
  | Record_ cells => join [sep] (map render_cell cells)
  | Comment t => c_hash :: t
  end.
Definition render_items (sep : char) (is : list item) (final : bool) : str :=
  join [c_nl] (map (render_item sep) is) ++ (if final then [c_nl] else []).
Definition render (sep : char) (d : document) : str :=
  repeat c_nl (blank_lines d) ++ render_items sep (items d) (final_newline d).

(** The table a document denotes: cells are trimmed, continuations and comments vanish. *)
Definition cell_value (c : cell_src) : str :=
  match c with
  | Bare pieces => trim (concat pieces)
  | Quoted _ text _ => trim text
  end.
Definition item_values (i : item) : list (list str) :=
  match i with
  | Record_ cells => [map cell_value cells]
  | Comment _ => []
  end.
Definition doc_values (d : document) : list (list str) := flat_map item_values (items d).

(** ** Well-formed documents (boolean, so that examples can be checked by computation) *)

Definition sep_ok (sep : char) : bool :=
  negb (is_ws sep) && negb (sep =? c_dquote)%N && negb (sep =? c_backslash)%N
  && negb (sep =? c_hash)%N.

Definition blank (s : str) : bool := forallb is_ws s.
Definition blank_in_line (s : str) : bool := forallb (fun c => is_ws c && negb (c =? c_nl)%N) s.
Definition first_visible_is (f : char -> bool) (s : str) : bool :=
  match trim_start s with [] => false | c :: _ => f c end.
Definition ends_with (c : char) (s : str) : bool :=
  match rev s with [] => false | x :: _ => (x =? c)%N end.

(** Bare text: no separator, no newline, and not starting with a quote. *)
Definition bare_ok (sep : char) (pieces : list str) : bool :=
  match pieces with [] => false | _ => true end
  && forallb (forallb (fun c => negb (c =? sep)%N && negb (c =? c_nl)%N)) pieces
  && negb (first_visible_is (fun c => (c =? c_dquote)%N) (concat pieces)).

(** A cell that is followed by the separator. *)
Definition inner_cell_ok (sep : char) (c : cell_src) : bool :=
  match c with
  | Bare pieces => bare_ok sep pieces
  | Quoted lead _ trail => blank_in_line lead && blank trail
  end.
(** A cell that is followed by the newline ending its record: a bare cell that does not end in a
    backslash. (This is where the parser departs from RFC 4180: see
    [C02_quoted_last_field_refuted].) *)
Definition line_end_cell_ok (sep : char) (c : cell_src) : bool :=
  match c with
  | Bare pieces => bare_ok sep pieces && negb (ends_with c_backslash (last pieces []))
  | Quoted _ _ _ => false
  end.
(** A cell that is followed by the end of the file. *)
Definition eof_cell_ok (sep : char) (c : cell_src) : bool :=
  match c with
  | Bare pieces => bare_ok sep pieces && negb (blank (concat pieces))
  | Quoted lead _ trail => blank_in_line lead && blank trail
  end.

Fixpoint cells_ok (sep : char) (last_ok : cell_src -> bool) (cs : list cell_src) : bool :=
  match cs with
  | [] => false
  | [c] => last_ok c
  | c :: r => inner_cell_ok sep c && cells_ok sep last_ok r
  end.
Definition not_comment (sep : char) (cs : list cell_src) : bool :=
  match render_item sep (Record_ cs) with
  | c :: _ => negb (c =? c_hash)%N
  | [] => true
  end.
Definition item_ok (sep : char) (last_ok : cell_src -> bool) (i : item) : bool :=
  match i with
  | Record_ cs => cells_ok sep last_ok cs && not_comment sep cs
  | Comment t => forallb (fun c => negb (c =? c_nl)%N) t
  end.
Fixpoint items_ok (sep : char) (final : bool) (is : list item) : bool :=
  match is with
  | [] => negb final
  | [i] => item_ok sep (if final then line_end_cell_ok sep else eof_cell_ok sep) i
  | i :: r => item_ok sep (line_end_cell_ok sep) i && items_ok sep final r
  end.
(** After the blank lines the text must not start with another newline. *)
Definition doc_ok (sep : char) (d : document) : bool :=
  sep_ok sep && items_ok sep (final_newline d) (items d)
  && match render_items sep (items d) (final_newline d) with
     | c :: _ => negb (c =? c_nl)%N
     | [] => true
     end.

(** ** Plain tables: the everyday special case *)
Definition plain_field (sep : char) (s : str) : bool :=
  forallb (fun c => negb (c =? sep)%N && negb (c =? c_nl)%N && negb (c =? c_backslash)%N
                    && negb (c =? c_dquote)%N && negb (c =? c_hash)%N) s
  && str_eqb (trim s) s.
Definition plain_row (sep : char) (r : list str) : bool :=
  match r with [] => false | _ => forallb (plain_field sep) r end.
(** No first line that is empty: it would be a leading blank line. *)
Definition plain_table (sep : char) (t : list (list str)) : bool :=
  forallb (plain_row sep) t && match t with [[]] :: _ => false | _ => true end.
(** One record per line, each ended by a newline. *)
Definition render_table (sep : char) (t : list (list str)) : str :=
  concat (map (fun r => join [sep] r ++ [c_nl]) t).

(** ** Where a character really is: 0-based line and column of index [i] of [s] *)
Definition true_line (s : str) (i : nat) : nat :=
  length (filter (fun c => (c =? c_nl)%N) (firstn i s)).
Definition true_column (s : str) (i : nat) : nat :=
  length (fst (span (fun c => negb (c =? c_nl)%N) (rev (firstn i s)))).
