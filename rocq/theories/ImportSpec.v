(** * ImportSpec: a program in several files. *)
From Verif Require Import Base Csvp Ast Eval EvalSpec Options AstParser Sheet SheetSpec Loader LoaderSpec.

(** the main module and the modules that it imports, directly or by way of others *)
Definition takes_part (load_one : module_path -> module_path -> outcome load_failure module) (main m : module) : Prop :=
  m = main \/ exists p r, reachable load_one main p r /\ load_one p r = Ok m.
(** [whole] holds exactly the definitions of these modules (so no two of them define a name differently) *)
Definition gathers (load_one : module_path -> module_path -> outcome load_failure module) (main : module) (whole : scope) : Prop :=
  NoDup (map fst (variables whole))
  /\ (forall x g, assoc x (variables whole) = Some g <-> exists m, takes_part load_one main m /\ assoc x (variables (m_scope m)) = Some g)
  /\ (forall f g, assoc f (functions whole) = Some g <-> exists m, takes_part load_one main m /\ assoc f (functions (m_scope m)) = Some g).
(** the same program in one file: the sheet of the main module and all definitions *)
Definition in_one_file (main : program) (whole : scope) : program := {| pr_scope := whole; pr_sheet := pr_sheet main; pr_required := [] |}.
(** names of cells and rows, and of the values from the command line, are not defined in the code of any module *)
Definition names_apart (p : program) (args : list (str * node)) : Prop :=
  (forall x t f, binds (pr_sheet p) x t f -> assoc x (variables (pr_scope p)) = None) /\ (forall x, In x (map fst args) -> assoc x (variables (pr_scope p)) = None).
(** every definition is in the main module or in one that the main module imports itself *)
Definition seen_by_main (load_one : module_path -> module_path -> outcome load_failure module) (main : module) (whole : scope) : Prop :=
  (forall x, assoc x (variables whole) <> None -> exists m, (m = main \/ exists q, In q (m_requires main) /\ load_one q (m_path main) = Ok m) /\ assoc x (variables (m_scope m)) <> None)
  /\ (forall f, assoc f (functions whole) <> None -> exists m, (m = main \/ exists q, In q (m_requires main) /\ load_one q (m_path main) = Ok m) /\ assoc f (functions (m_scope m)) <> None).
