(** * InlineSpec: writing out what a name or a call is short for. *)
From Verif Require Import Base Csvp Ast Eval EvalSpec Options Sheet SheetSpec ProgramSpec.

(** [written_out p ps n n']: [n'] is [n] with any number of names replaced by the formulas they are defined as, and calls by the bodies of
    their functions with the arguments for the parameters, which may in turn be written out. At a place where [ps] are parameters, they are
    not replaced, and nothing that mentions a name among them is put there. *)
Inductive written_out (p : program) (ps : list str) : node -> node -> Prop :=
| wo_same n : written_out p ps n n
| wo_infix l l' op r r' : written_out p ps l l' -> written_out p ps r r' -> written_out p ps (NInfix l op r) (NInfix l' op r')
| wo_args f es es' : Forall2 (written_out p ps) es es' -> written_out p ps (NCall es f) (NCall es' f)
| wo_name x nm e n' : assoc x (variables (pr_scope p)) = Some (NVar nm (VAst e)) -> ~ In x ps -> (forall y, In y ps -> ~ In y (ref_names e)) ->
    written_out p ps e n' -> written_out p ps (NRef x) n'
| wo_call f es qs body nm n' : assoc f (functions (pr_scope p)) = Some (NFn qs body nm) -> length es = length qs ->
    (forall y, In y (ref_names body) -> ~ In y qs -> ~ In y ps) ->
    written_out p ps (subst (combine qs es) body) n' -> written_out p ps (NCall es f) n'.
(** the same cell with its formula written out *)
Definition inlined_cell (p : program) (c c' : cell) : Prop :=
  cell_options c' = cell_options c /\ cell_var c' = cell_var c
  /\ match cell_ast c, cell_ast c' with
     | Some n, Some n' => written_out p [] n n'
     | None, None => parsed_value c' = parsed_value c
     | _, _ => False
     end.
Definition inlined_row (p : program) (r r' : row) : Prop :=
  row_fill r' = row_fill r /\ row_var r' = row_var r /\ row_options r' = row_options r /\ Forall2 (inlined_cell p) (row_cells r) (row_cells r').
(** the same program with formulas in cells and definitions written out, anywhere and as far as one likes *)
Definition inlined (p p' : program) : Prop :=
  Forall2 (inlined_row p) (sheet_rows (pr_sheet p)) (sheet_rows (pr_sheet p'))
  /\ (forall x, match assoc x (variables (pr_scope p)), assoc x (variables (pr_scope p')) with
                | Some (NVar _ (VAst e)), Some (NVar _ (VAst e')) => written_out p [] e e'
                | None, None => True
                | _, _ => False
                end)
  /\ (forall f, match assoc f (functions (pr_scope p)), assoc f (functions (pr_scope p')) with
                | Some (NFn ps body _), Some (NFn ps' body' _) => ps' = ps /\ written_out p ps body body'
                | None, None => True
                | _, _ => False
                end).
