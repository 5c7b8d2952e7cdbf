(** * RenameSpec: a program with other names. *)
From Verif Require Import Base Csvp Ast Eval Options CellParser Sheet SheetSpec Loader SameSpec.

(** [v x] is the new name of the value x (a variable, a cell, a row, a parameter, a -k value), [f g] that of the function g *)
Record renaming := { rn_value : str -> str; rn_fn : str -> str }.
(** different names stay different, every name can be had, and the places of the sheet keep theirs *)
Definition renames (m : renaming) : Prop :=
  (exists back, (forall x, back (rn_value m x) = x) /\ (forall x, rn_value m (back x) = x))
  /\ (exists back, (forall f, back (rn_fn m f) = f) /\ (forall f, rn_fn m (back f) = f))
  /\ forall x, place_name x -> rn_value m x = x.
(** the formula with the new names *)
Fixpoint rename (m : renaming) (n : node) : node :=
  match n with
  | NFn ps b f => NFn (map (rn_value m) ps) (rename m b) (rn_fn m f)
  | NCall args f => NCall (map (rename m) args) (rn_fn m f)
  | NInfix l op r => NInfix (rename m l) op (rename m r)
  | NRef x => NRef (rn_value m x)
  | NVar x v => NVar (rn_value m x) (match v with VAst a => VAst (rename m a) | _ => v end)
  | _ => n
  end.
(** the sheet with the new names: in the formulas and as names of cells and rows; other texts and the options stay *)
Definition renamed_cell (m : renaming) (c c' : cell) : Prop :=
  cell_ast c' = option_map (rename m) (cell_ast c) /\ (cell_ast c = None -> parsed_value c' = parsed_value c) /\ cell_options c' = cell_options c
  /\ cell_var c' = option_map (rn_value m) (cell_var c).
Definition renamed_row (m : renaming) (r r' : row) : Prop :=
  row_options r' = row_options r /\ row_fill r' = row_fill r /\ row_var r' = option_map (rn_value m) (row_var r)
  /\ Forall2 (renamed_cell m) (row_cells r) (row_cells r').
Definition renamed_sheet (m : renaming) (s s' : spreadsheet) : Prop :=
  fills_expanded s' = fills_expanded s /\ Forall2 (renamed_row m) (sheet_rows s) (sheet_rows s').
(** definitions with the new names: what the new name stands for is what the old one stood for, with the new names *)
Definition renamed_definitions (m : renaming) (name : str -> str) (l l' : list (str * node)) : Prop :=
  forall x, assoc (name x) l' = option_map (rename m) (assoc x l).
Definition renamed_program (m : renaming) (p p' : program) : Prop :=
  renamed_definitions m (rn_value m) (variables (pr_scope p)) (variables (pr_scope p'))
  /\ renamed_definitions m (rn_fn m) (functions (pr_scope p)) (functions (pr_scope p'))
  /\ renamed_sheet m (pr_sheet p) (pr_sheet p').
(** the same error, with the new names *)
Definition renamed_error (m : renaming) (e e' : compile_error) : Prop :=
  match e with
  | MainEval (CellEval a k) =>
      e' = MainEval (CellEval a {| ee_function := rename m (ee_function k); ee_expected := ee_expected k; ee_received := ee_received k |})
  | _ => e' = e
  end.
Definition renamed_result (m : renaming) (r r' : outcome compile_error module) : Prop :=
  match r, r' with
  | Ok a, Ok a' => renamed_sheet m (module_sheet a) (module_sheet a')
  | Err e, Err e' => renamed_error m e e'
  | Panic, Panic | NoFuel, NoFuel => True
  | _, _ => False
  end.
(** two runs that differ at most in the orders in which the hash maps are walked when the main sheet is evaluated *)
Definition other_orders (E E' : env) : Prop :=
  e_version E' = e_version E /\ e_co E' = e_co E /\ e_writable E' = e_writable E /\ e_now E' = e_now E /\ ev_fuel (e_sheet E') = ev_fuel (e_sheet E)
  /\ e_sched E' = e_sched E /\ e_fuel E' = e_fuel E /\ e_order E' = e_order E /\ e_keys E' = e_keys E.
