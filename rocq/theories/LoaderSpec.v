(** * LoaderSpec: what loading a program's modules means. *)
From Verif Require Import Base Csvp Ast AstParser Eval Sheet Loader.

Section Loading.
  Variable load_one : module_path -> module_path -> outcome load_failure module.
  Variable main : module.
  (** [reachable p r]: the main module, or a module that was itself reached and could be read, imports [p];
      the importing module's path is [r]. *)
  Inductive reachable : module_path -> module_path -> Prop :=
  | r_main p : In p (m_requires main) -> reachable p (m_path main)
  | r_import q r m p : reachable q r -> load_one q r = Ok m -> In p (m_requires m) -> reachable p (m_path m).
  (** a name means the same file wherever it is imported *)
  Definition unambiguous : Prop :=
    forall p r r', reachable p r -> reachable p r' -> load_one p r = load_one p r'.
  (** finitely many modules: a list that has all of them *)
  Definition all_modules (U : list module_path) : Prop :=
    incl (m_requires main) U /\ forall p r m, In p U -> load_one p r = Ok m -> incl (m_requires m) U.
End Loading.

(** [leads_to main loaded p q]: following imports from [p] one gets to [q] *)
Inductive leads_to (main : module) (loaded : list (module_path * module)) : module_path -> module_path -> Prop :=
| l_one p q : In q (edges main loaded p) -> leads_to main loaded p q
| l_more p q r : In q (edges main loaded p) -> leads_to main loaded q r -> leads_to main loaded p r.
(** The orders petgraph's tarjan_scc can return: every node, and whatever a module imports, directly or
    not, comes before it unless they import each other. (When the main module imports the same module twice, the
    graph has two nodes for it, one of them without its edges: then nothing is said about the order.) *)
Definition resolution_order (main : module) (loaded : list (module_path * module)) (order : list module_path) : Prop :=
  (forall p, In p order <-> In p (graph_nodes main loaded))
  /\ (NoDup (m_requires main) -> forall a p b q c, order = a ++ p :: b ++ q :: c -> leads_to main loaded p q -> leads_to main loaded q p).

(** [import_chain next p vs q]: [p] imports the first of [vs], each of [vs] imports the next, the last imports [q] *)
Fixpoint import_chain (next : module_path -> list module_path) (p : module_path) (vs : list module_path) (q : module_path) : Prop :=
  match vs with [] => In q (next p) | v :: vs => In v (next p) /\ import_chain next v vs q end.
(** [p] is imported by another dependency: there is a way from main to [p] through other modules, none of them twice *)
Definition imported_indirectly (main : module) (ld : list (module_path * module)) (p : module_path) : Prop :=
  exists vs, vs <> [] /\ NoDup (m_path main :: vs) /\ ~ In p vs /\ import_chain (edges main ld) (m_path main) vs p.

(** A whole compilation: every run of the threads, every such order. *)
Inductive compiles (E : env) (use_cache : bool) (key_values : list (str * node)) (name : str) (F : fs)
  : outcome compile_error module * fs -> Prop :=
| c_run main sh t order :
    load_from_cache_from_filename E F [name] [name] = Ok main ->
    load_run (load_one E F use_cache) main sh t -> resolution_order main (loaded sh) order ->
    compiles E use_cache key_values name F (compile_with E use_cache key_values main sh t order F)
| c_main_failed e : load_from_cache_from_filename E F [name] [name] = Err e ->
    compiles E use_cache key_values name F (Err (MainNotLoaded e), F)
| c_main_panics : load_from_cache_from_filename E F [name] [name] = Panic -> compiles E use_cache key_values name F (Panic, F).

(** ** Files *)
(** a real directory: finitely many files *)
Definition finite_files (F : fs) : Prop := exists L, forall f, In f L \/ (sources F f = None /\ objects F f = None).
(** the same sources without any object code *)
Definition without_objects (F : fs) : fs := {| sources := sources F; objects := fun _ => None |}.
(** no object file, or one that does not decode *)
Definition no_object (F : fs) (f : file) : Prop := match objects F f with Some (ODecoded _, _) => False | _ => True end.
(** an object that was written before the last change of the source *)
Definition older_object (F : fs) (f : file) : Prop :=
  match objects F f with
  | Some (ODecoded m, t) => m_file m = f /\ exists text t', sources F f = Some (text, t') /\ t < t'
  | _ => False
  end.
(** object files are where [write_object] puts them *)
Definition objects_in_place (F : fs) : Prop := forall f m t, objects F f = Some (ODecoded m, t) -> m_file m = f.
