(** * EditSpec: editing a spreadsheet. *)
From Verif Require Import Base Csvp Ast Eval EvalSpec Options Sheet SheetSpec SameSpec.

(** ** One cell *)
(** two rows that are the same but for the cell in column [x], which keeps its name *)
Definition same_row_but (x : nat) (r r' : row) : Prop :=
  row_options r = row_options r' /\ row_fill r = row_fill r' /\ row_var r = row_var r' /\ length (row_cells r) = length (row_cells r')
  /\ forall j c c', nth_error (row_cells r) j = Some c -> nth_error (row_cells r') j = Some c' -> cell_var c = cell_var c' /\ (j <> x -> alike_cell c c').
(** two sheets that are the same but for the cell in row [y] and column [x] *)
Definition edited (y x : nat) (s s' : spreadsheet) : Prop :=
  fills_expanded s = fills_expanded s' /\ length (sheet_rows s) = length (sheet_rows s')
  /\ forall i r r', nth_error (sheet_rows s) i = Some r -> nth_error (sheet_rows s') i = Some r' -> if i =? y then same_row_but x r r' else alike_row r r'.
(** row [i] of the output is a copy of row [y] of the sheet [s] *)
Definition is_copy_of (s : spreadsheet) (y i : nat) : Prop :=
  let rows := sheet_rows s in exists r, nth_error rows y = Some r /\ offset (room rows) rows y <= i < offset (room rows) rows y + copies (room rows) r.
(** two outputs that are the same but for the copies of that cell *)
Definition changed (s : spreadsheet) (y x : nat) (o o' : spreadsheet) : Prop :=
  length (sheet_rows o) = length (sheet_rows o')
  /\ forall i r r', nth_error (sheet_rows o) i = Some r -> nth_error (sheet_rows o') i = Some r' ->
     (is_copy_of s y i -> same_row_but x r r') /\ (~ is_copy_of s y i -> alike_row r r').
(** the cell in row [y] and column [x], if there is one, is plain text *)
Definition no_formula_at (s : spreadsheet) (y x : nat) : Prop :=
  forall r c, nth_error (sheet_rows s) y = Some r -> nth_error (row_cells r) x = Some c -> cell_ast c = None.

(** ** Rows at the end *)
Definition appended (s s' : spreadsheet) (more : list row) : Prop :=
  fills_expanded s = fills_expanded s' /\ exists first, sheet_rows s' = first ++ more /\ Forall2 alike_row (sheet_rows s) first.
(** a row that has the name, or has a cell that has it *)
Definition named (r : row) (x : str) : Prop := row_var r = Some x \/ exists c, In c (row_cells r) /\ cell_var c = Some x.

Definition two_unbounded (rs : list row) : Prop := exists i j ri rj, i < j /\ nth_error rs i = Some ri /\ nth_error rs j = Some rj /\ unbounded ri /\ unbounded rj.
(** rows without formulas that can be expanded *)
Definition plain_rows (more : list row) : Prop := (forall r c, In r more -> In c (row_cells r) -> cell_ast c = None) /\ ~ two_unbounded more.

(** ** Writing out a fill *)
Definition unnamed (r : row) : Prop := forall x, ~ named r x.
Definition without_fill (r : row) : row := {| row_cells := row_cells r; row_options := row_options r; row_fill := None; row_var := row_var r |}.
(** the same cells with the same options *)
Definition same_contents (r r' : row) : Prop := row_options r = row_options r' /\ row_var r = row_var r' /\ Forall2 alike_cell (row_cells r) (row_cells r').
Definition written_out (s s' : spreadsheet) : Prop :=
  exists a r b n start, unnamed r /\ row_fill r = Some {| fill_amount := Some n; start_row := start |}
    /\ fills_expanded s = fills_expanded s' /\ sheet_rows s = a ++ [r] ++ b /\ Forall2 alike_row (a ++ repeat (without_fill r) n ++ b) (sheet_rows s').
