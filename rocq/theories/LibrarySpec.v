(** * LibrarySpec: a program together with what it imports, as one program. *)
From Verif Require Import Base Csvp Ast Eval Options CellParser AstParser Sheet Loader LoaderSpec HistorySpec.

(** [linked E F p q]: [q] has the sheet of [p]; its definitions are those of [p] and the exported ones of the modules that [p] imports,
    each as [meaning] says (from the sources in [F] alone), one import after the other. *)
Definition linked (E : env) (F : fs) (p q : program) : Prop :=
  pr_sheet q = pr_sheet p /\ pr_required q = pr_required p
  /\ exists meanings, (forall i, In i (pr_required p) -> exists n sc, meaning n E F i i = Some sc /\ passoc i meanings = Some sc)
     /\ merge_scopes meanings (pr_required p) (pr_scope p) = Some (pr_scope q).
(** After a history of the directory, [F] has a file called [name] with this text, [p] as it is read, that uses the library and whose own
    object file, if there is one, does not count. *)
Definition main_with_library (E0 : env) (F0 : fs) (Lib : module_path -> file -> Prop) (E : env) (F : fs) (name text : str) (p : program) : Prop :=
  library E0 F0 Lib /\ history E0 F0 Lib F /\ same_compiler E0 E /\ in_the_past E F Lib /\ uses_library E F Lib name /\ (forall f, e_writable E f = true)
  /\ (exists t, sources F [name] = Some (text, t)) /\ (no_object F [name] \/ older_object F [name]) /\ load_source (e_co E) text = Ok p.
