(** * ModuleSpec: definitions that are spread over several modules. *)
From Verif Require Import Base Csvp Ast Eval EvalSpec Options CellParser AstParser Sheet Loader.

(** [p] is the name of a parameter of a function *)
Definition parameter (sc : scope) (p : str) : Prop :=
  exists f ps body name, assoc f (functions sc) = Some (NFn ps body name) /\ In p ps.
(** Names of parameters are not used for anything else: no variable is called like a parameter, and the only names of parameters
    that a definition mentions are those of its own. *)
Definition parameters_apart (sc : scope) : Prop :=
  (forall p, parameter sc p -> assoc p (variables sc) = None)
  /\ (forall x v y, variable_node sc None x = Some (Ok v) -> In y (ref_names v) -> ~ parameter sc y)
  /\ (forall f ps body name y, assoc f (functions sc) = Some (NFn ps body name) -> In y (ref_names body) -> ~ In y ps -> ~ parameter sc y).
(** every definition of [sc] is one of [all] *)
Definition part_of (sc all : scope) : Prop :=
  (forall x g, assoc x (variables sc) = Some g -> assoc x (variables all) = Some g)
  /\ (forall f g, assoc f (functions sc) = Some g -> assoc f (functions all) = Some g).
(** the names of a sheet's cell and row variables, and of the variables given on the command line, are not defined in the code *)
Definition variables_apart (p : program) (ext : list (str * node)) : Prop :=
  forall x, In x (map fst (sheet_variables (pr_sheet p))) \/ In x (map fst ext) -> assoc x (variables (pr_scope p)) = None.
(** the same sheet, wherever in a file it stands: the same rows, cell for cell the same formula, text and variable *)
Definition same_sheet (s1 s2 : spreadsheet) : Prop :=
  fills_expanded s1 = fills_expanded s2
  /\ Forall2 (fun r1 r2 => row_fill r1 = row_fill r2 /\ row_var r1 = row_var r2
       /\ Forall2 (fun c1 c2 => cell_ast c1 = cell_ast c2 /\ parsed_value c1 = parsed_value c2 /\ cell_var c1 = cell_var c2) (row_cells r1) (row_cells r2))
     (sheet_rows s1) (sheet_rows s2).
(** the formula of a cell is done: nothing in it is defined in the scope *)
Definition resolved (sc : scope) (c : cell) : Prop := forall n, cell_ast c = Some n -> nothing_known sc n.
(** [rv] shows that no variable is defined in terms of itself *)
Definition ranked_variables (sc : scope) (pos : option address) (rv : str -> nat) : Prop :=
  forall x r, variable_node sc pos x = Some r -> exists v, r = Ok v /\ plain v /\ forall y, In y (ref_names v) -> assoc y (variables sc) <> None -> rv y < rv x.
(** the module [m] defines the variable [y] or imports a module that does *)
Definition sees (load_one : module_path -> module_path -> outcome load_failure module) (m : module) (y : str) : Prop :=
  assoc y (variables (m_scope m)) <> None
  \/ exists q m', In q (m_requires m) /\ load_one q (m_path m) = Ok m' /\ assoc y (variables (m_scope m')) <> None.
(** of the variables of [all], the definitions in [m] only mention those that [m] sees *)
Definition self_contained (load_one : module_path -> module_path -> outcome load_failure module) (all : scope) (m : module) : Prop :=
  forall x nm v y, assoc x (variables (m_scope m)) = Some (NVar nm (VAst v)) -> In y (ref_names v) -> assoc y (variables all) <> None -> sees load_one m y.
