(** * RestyleSpec: changing how cells look. *)
From Verif Require Import Base Csvp SourceCode Ast AstParser Eval Options CellParser CellSpec Sheet Loader SameSpec Targets.

(** ** Sheets *)
(** the same cell, but for its options *)
Definition restyled_cell (c c' : cell) : Prop :=
  cell_ast c = cell_ast c' /\ parsed_value c = parsed_value c' /\ cell_var c = cell_var c'.
Definition restyled_row (r r' : row) : Prop :=
  row_fill r = row_fill r' /\ row_var r = row_var r' /\ Forall2 restyled_cell (row_cells r) (row_cells r').
Definition restyled (s s' : spreadsheet) : Prop :=
  fills_expanded s = fills_expanded s' /\ Forall2 restyled_row (sheet_rows s) (sheet_rows s').

(** ** Files *)
(** names and fills are the options that do more than change how a cell looks *)
Definition names_or_fills (o : opt) : bool := match o with OVar _ | OFill _ => true | _ => false end.
(** two fields of the same place: option lists with the same names and fills in the same order, and the same text after them *)
Definition restyled_field (co : cell_oracle) (f f' : field) : Prop :=
  exists rd rd', CellSpec.reads co true f rd /\ CellSpec.reads co true f' rd'
    /\ forallb is_ascii (rd_text rd) = true /\ forallb is_ascii (rd_text rd') = true
    /\ trim (rd_value rd) = trim (rd_value rd') /\ well_placed (addr_x (f_address f')) (rd_lists rd')
    /\ filter names_or_fills (cell_opts (rd_lists rd)) = filter names_or_fills (cell_opts (rd_lists rd'))
    /\ filter names_or_fills (row_opts (rd_lists rd)) = filter names_or_fills (row_opts (rd_lists rd')).
(** the fields of the sheet of a file *)
Definition fields_of (text : str) : outcome csvp_error (list (list field)) :=
  csvp_parse {| separator := c_comma; lines_above := length_of_code_section (source_code_new text) |} (csv_section (source_code_new text)).
(** two files with the same code section whose cells differ in their options only *)
Definition restyled_file (co : cell_oracle) (text text' : str) : Prop :=
  code_section (source_code_new text) = code_section (source_code_new text')
  /\ exists rs rs', fields_of text = Ok rs /\ fields_of text' = Ok rs' /\ Forall2 (Forall2 (restyled_field co)) rs rs'.

(** ** Results *)
(** both compile, to sheets that differ in options only, or fail with the same error *)
Definition same_values (r r' : outcome compile_error module) : Prop :=
  match r, r' with
  | Ok m, Ok m' => restyled (module_sheet m) (module_sheet m')
  | Err e, Err e' => e = e'
  | Panic, Panic | NoFuel, NoFuel => True
  | _, _ => False
  end.
(** the requests to Google Sheets, but for formats: where each goes and for each of its cells what was there before, nothing, or a value *)
Definition sent {V} (g : gcell V) : option (V + entered) :=
  match g with GExisting v => Some (inl v) | GDefault => None | GNew c => Some (inr (google_value c)) end.
Definition sent_requests {V} (o : outcome unit (list (request V))) : option (list (N * N * list (list (option (V + entered))))) :=
  match o with Ok qs => Some (map (fun q => (at_row q, at_column q, map (map sent) (data q))) qs) | _ => None end.
(** what the cells of a worksheet hold *)
Definition holds {V} (w : worksheet V) (p : address) : option (option V * entered) :=
  option_map (fun x => (x_before x, x_set x)) (ws_cells w p).
