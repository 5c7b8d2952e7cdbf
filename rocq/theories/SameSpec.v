(** * SameSpec: when two programs are the same for their users. *)
From Verif Require Import Base Csvp SourceCode Ast AstParser Eval EvalSpec Options CellParser Sheet SheetSpec SourceSpec CodeSectionSpec Loader LoaderSpec.

(** the same sheet, wherever in a file it stands: the same rows, cell for cell the same formula, text, options and name *)
Definition alike_cell (c c' : cell) : Prop :=
  cell_ast c = cell_ast c' /\ parsed_value c = parsed_value c' /\ cell_options c = cell_options c' /\ cell_var c = cell_var c'.
Definition alike_row (r r' : row) : Prop :=
  row_options r = row_options r' /\ row_fill r = row_fill r' /\ row_var r = row_var r' /\ Forall2 alike_cell (row_cells r) (row_cells r').
Definition alike_sheet (s s' : spreadsheet) : Prop :=
  fills_expanded s = fills_expanded s' /\ Forall2 alike_row (sheet_rows s) (sheet_rows s').
(** both succeed with the same sheet, or both fail with the same error, or neither ends *)
Definition same_result {E A} (sheet_of : A -> spreadsheet) (r r' : outcome E A) : Prop :=
  match r, r' with
  | Ok a, Ok a' => alike_sheet (sheet_of a) (sheet_of a')
  | Err e, Err e' => e = e'
  | Panic, Panic | NoFuel, NoFuel => True
  | _, _ => False
  end.

(** ** What a program looks at *)
(** the formulas of a program: those of the cells, the values of variables and those given on the command line *)
Definition formula_in (p : program) (ext : list (str * node)) (n : node) : Prop :=
  (exists r c, In r (sheet_rows (pr_sheet p)) /\ In c (row_cells r) /\ cell_ast c = Some n)
  \/ (exists x, assoc x (variables (pr_scope p)) = Some n) \/ (exists x, assoc x ext = Some n).
Definition parameters_of (g : node) : list str := match g with NFn ps _ _ => ps | _ => [] end.
(** the name occurs as the name of a value (in a function: not as one of its parameters) or of a function *)
Definition reads_name (p : program) (ext : list (str * node)) (x : str) : Prop :=
  (exists n, formula_in p ext n /\ In x (ref_names n))
  \/ (exists f g, assoc f (functions (pr_scope p)) = Some g /\ In x (ref_names g) /\ ~ In x (parameters_of g)).
Definition calls_name (p : program) (ext : list (str * node)) (f : str) : Prop :=
  (exists n, formula_in p ext n /\ In f (call_names n))
  \/ (exists h g, assoc h (functions (pr_scope p)) = Some g /\ In f (call_names g)).
(** the name reads as a place in a sheet: a cell, a part of a column or rows *)
Definition place_name (x : str) : Prop :=
  (exists c r, names_cell x c r) \/ (exists c r r', names_column_part x c r r') \/ (exists r r', names_rows x r r').
(** [p'] and [ext'] give the names that [p] looks at the same definitions *)
Definition same_where_read (p : program) (ext : list (str * node)) (p' : program) (ext' : list (str * node)) : Prop :=
  (forall x, reads_name p ext x \/ place_name x ->
     assoc x (variables (pr_scope p')) = assoc x (variables (pr_scope p)) /\ assoc x ext' = assoc x ext)
  /\ (forall f, calls_name p ext f -> assoc f (functions (pr_scope p')) = assoc f (functions (pr_scope p))).

(** ** Files *)
(** a file: the lines of the code section, the separator and the lines of the sheet *)
Definition file_of (l : list item) (rows : list str) : str := unlines (map item_text l ++ [lit "---"] ++ rows).
(** a line of a file *)
Definition file_line (s : str) : Prop := one_line s = true /\ no_cr s = true.
(** what a line of the code section defines or imports: variables and functions may share a name *)
Definition item_key (i : item) : nat * str := match i with IUse m => (0, m) | IVar x _ => (1, x) | IFn f _ _ => (2, f) end.
Definition definitions (l : list item) : list item := filter (fun i => negb (is_use i)) l.
Definition module_sheet (m : module) : spreadsheet := pr_sheet (m_program m).
(** the two directories differ at most in the one file *)
Definition same_elsewhere (F F' : fs) (name : str) : Prop := forall f, f <> [name] -> sources F' f = sources F f /\ objects F' f = objects F f.
(** no import leads back to the main module *)
Definition main_not_imported (E : env) (F : fs) (use_cache : bool) (name : str) : Prop :=
  forall main, load_from_source E F [name] [name] = Ok main -> forall q r, reachable (load_one E F use_cache) main q r -> filename_relative_to q r <> [name].
