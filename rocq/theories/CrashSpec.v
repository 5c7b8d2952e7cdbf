(** * CrashSpec: directories in which programs have been compiled before (C96). *)
From Verif Require Import Base Csvp Ast Eval Options CellParser AstParser Sheet Loader LoaderSpec HistorySpec.

(** none of the modules the program imports, directly or not, is in a file of [programs] *)
Definition imports_no_program (programs : file -> Prop) (E : env) (use_cache : bool) (F : fs) (name : str) : Prop :=
  forall main p r, load_from_cache_from_filename E F [name] [name] = Ok main -> reachable (load_one E F use_cache) main p r -> ~ programs (filename_relative_to p r).
(** What can happen in a directory in which the files [programs] are compiled on their own and never imported, and the others only imported: any of these
    programs is compiled, by any version of the compiler, with or without the cache, with whatever arguments and whatever comes of it, or killed while the object files are being written;
    any file is changed, added or removed; object files are removed or damaged. *)
Inductive worked_in (programs : file -> Prop) : fs -> Prop :=
| w_start F : (forall f, objects F f = None) -> worked_in programs F
| w_compile E use_cache kv name F r F' : worked_in programs F -> programs [name] -> imports_no_program programs E use_cache F name ->
    compiles E use_cache kv name F (r, F') -> worked_in programs F'
| w_killed E name main sh order rest F r F' : worked_in programs F -> programs [name] -> imports_no_program programs E true F name ->
    load_from_cache_from_filename E F [name] [name] = Ok main -> load_run (load_one E F true) main sh TDone -> resolution_order main (loaded sh) (order ++ rest) ->
    eval_dependencies E true order (loaded sh) F = (r, F') -> worked_in programs F'
| w_edit F f s : worked_in programs F -> worked_in programs (with_source F f s)
| w_lose F f o : worked_in programs F -> (forall m t, o <> Some (ODecoded m, t)) -> worked_in programs (with_object F f o).

(** Why compiling [name] may crash: a text of the program's own that the parser panics at (C48 says which do), a module that the main module imports twice, or an
    import of an imported module that cannot be read. *)
Inductive crash_cause (E : env) (use_cache : bool) (F : fs) (name : str) : Prop :=
| cc_main text t : sources F [name] = Some (text, t) -> load_source (e_co E) text = Panic -> crash_cause E use_cache F name
| cc_import main p r text t : load_from_cache_from_filename E F [name] [name] = Ok main -> reachable (load_one E F use_cache) main p r ->
    sources F (filename_relative_to p r) = Some (text, t) -> load_source (e_co E) text = Panic -> crash_cause E use_cache F name
| cc_twice main : load_from_cache_from_filename E F [name] [name] = Ok main -> ~ NoDup (m_requires main) -> crash_cause E use_cache F name
| cc_indirect main p r q r' m e : load_from_cache_from_filename E F [name] [name] = Ok main ->
    reachable (load_one E F use_cache) main q r -> load_one E F use_cache q r = Ok m -> In p (m_requires m) ->
    reachable (load_one E F use_cache) main p r' -> load_one E F use_cache p r' = Err e -> crash_cause E use_cache F name.
