(** * CompileSpec: what a whole compilation does to the texts of a sheet. *)
From Verif Require Import Base Csvp SourceCode Ast AstParser Eval EvalSpec Options CellParser CellSpec Sheet.

(** the texts of a sheet, as they are written *)
Definition sheet_texts (s : spreadsheet) : list (list str) := map (fun r => map show_cell (row_cells r)) (sheet_rows s).
(** no line of the file is three dashes with white space around *)
Definition no_separator_line (text : str) : Prop :=
  forall l a b, In l (lines_of text) -> forallb is_ws a = true -> forallb is_ws b = true -> l <> a ++ lit "---" ++ b.
(** [untouched co v out]: a cell with the text [v] is written as [out]: a formula as the canonical text of the expression
    that follows the equals sign, anything else as itself *)
Definition untouched (co : cell_oracle) (v out : str) : Prop :=
  (is_formula v /\ exists n, ast_parse (co_oracle co) false v = Ok n /\ out = c_eq :: show n) \/ (~ is_formula v /\ out = v).
(** a cell text without option lists; if it is a formula it can be read and mentions none of the names [known] *)
Definition independent_text (co : cell_oracle) (known : list str) (v : str) : Prop :=
  no_list v /\ (is_formula v -> exists n, ast_parse (co_oracle co) false v = Ok n /\ forall x, In x (ref_names n) -> ~ In x known).
(** a table as a rectangle: short rows are filled up with empty cells *)
Definition width (t : list (list str)) : nat := list_max (map (@length str) t).
Definition padded (t : list (list str)) : list (list str) := map (fun r => r ++ repeat [] (width t - length r)) t.
