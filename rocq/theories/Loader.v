(** * Loader: model of src/module_loader, the loading and caching part of src/module, and
    [Compiler::compile] (src/compiler/mod.rs).

    Simplifications. File names are lists of path components below the directory of the main file,
    without extension: the source of [f] is f.csvpp and its object code f.csvpo. Times and compiler
    versions are numbers. Serialising a module and reading it back gives the same module
    (bincode and serde are not modelled); an object file that does not decode is [OGarbage].
    [petgraph] is not in /repo: [all_simple_paths] follows its documentation and source,
    [tarjan_scc] is any order it may return (see [resolution_order] in LoaderSpec.v). *)
From Verif Require Import Base Csvp SourceCode Ast AstParser Eval Options CellParser Sheet.

(** ** Module paths *)
Fixpoint path_eqb (a b : module_path) : bool :=
  match a, b with
  | [], [] => true
  | x :: a, y :: b => str_eqb x y && path_eqb a b
  | _, _ => false
  end.
Definition path_in (p : module_path) (l : list module_path) : bool := existsb (path_eqb p) l.
(** HashMap<ModulePath, _>; the list order stands for the iteration order *)
Fixpoint passoc {A} (p : module_path) (m : list (module_path * A)) : option A :=
  match m with
  | [] => None
  | (q, v) :: m => if path_eqb p q then Some v else passoc p m
  end.
Fixpoint pinsert {A} (p : module_path) (v : A) (m : list (module_path * A)) : list (module_path * A) :=
  match m with
  | [] => [(p, v)]
  | (q, w) :: m => if path_eqb p q then (p, v) :: m else (q, w) :: pinsert p v m
  end.
(** HashMap::remove *)
Fixpoint premove {A} (p : module_path) (m : list (module_path * A)) : list (module_path * A) :=
  match m with
  | [] => []
  | (q, w) :: m => if path_eqb p q then m else (q, w) :: premove p m
  end.
(** module_path/mod.rs 13-22 [filename_relative_to] (with try_from.rs 6-12): next to the importing file *)
Notation file := (list str).
Definition filename_relative_to (p relative_to : module_path) : file := removelast relative_to ++ p.

(** ** Modules and files *)
(** module/mod.rs 22-32; [program] has the scope, the spreadsheet and the required modules;
    [m_file] is [source_code.filename] *)
Record module := {
  m_version : nat; m_path : module_path; m_program : program; m_file : file; m_dirty : bool; m_needs_eval : bool
}.
Definition m_scope (m : module) : scope := pr_scope (m_program m).
Definition m_requires (m : module) : list module_path := pr_required (m_program m).
(** the module with another scope / program / flags *)
Definition with_scope (m : module) (sc : scope) : module :=
  {| m_version := m_version m; m_path := m_path m;
     m_program := {| pr_scope := sc; pr_sheet := pr_sheet (m_program m); pr_required := pr_required (m_program m) |};
     m_file := m_file m; m_dirty := m_dirty m; m_needs_eval := m_needs_eval m |}.
Definition with_program (m : module) (p : program) : module :=
  {| m_version := m_version m; m_path := m_path m; m_program := p; m_file := m_file m; m_dirty := m_dirty m; m_needs_eval := m_needs_eval m |}.
Definition with_flags (m : module) (dirty needs_eval : bool) : module :=
  {| m_version := m_version m; m_path := m_path m; m_program := m_program m; m_file := m_file m; m_dirty := dirty; m_needs_eval := needs_eval |}.

Inductive object := ODecoded (m : module) | OGarbage.
(** [None]: no such file; the number is the modification time *)
Record fs := { sources : file -> option (str * nat); objects : file -> option (object * nat) }.

(** What can go wrong while loading one module. *)
Inductive load_failure :=
| Unreadable (f : file)            (* source_code/try_from.rs 7-12 *)
| Unstatable (f : file)            (* module/mod.rs 217-229 *)
| BadSource (f : file) (e : load_error).

(** [env]: the compiler's own version, the oracles for characters, numbers, ..., whether an object
    file can be written, the time stamp of files written in this run, the fuel and hash orders of evaluations. *)
Record env := {
  e_version : nat;
  e_co : cell_oracle;
  e_writable : file -> bool;
  e_now : nat;
  e_sheet : eval_env;                                            (* for the main sheet *)
  e_sched : list nat;
  e_fuel : nat;
  e_order : module_path -> str -> nat -> list str -> list str;   (* for each definition of a dependency *)
  e_keys : module_path -> list str -> list str;                  (* iteration order of a dependency's maps *)
}.

(** module/mod.rs 119-145 *)
Definition load_from_source (E : env) (F : fs) (p : module_path) (f : file) : outcome load_failure module :=
  match sources F f with
  | None => Err (Unreadable f)
  | Some (text, _) =>
      match load_source (e_co E) text with
      | Ok prog => Ok {| m_version := e_version E; m_path := p; m_program := prog; m_file := f; m_dirty := false; m_needs_eval := true |}
      | Err e => Err (BadSource f e)
      | Panic => Panic
      | NoFuel => NoFuel
      end
  end.
(** module/mod.rs 80-103 *)
Definition load_from_object (F : fs) (f : file) : option module :=
  match objects F f with
  | Some (ODecoded m, _) => Some m
  | Some (OGarbage, _) | None => None
  end.
(** module/mod.rs 214-263 *)
Definition check_if_is_dirty (E : env) (F : fs) (m : module) : outcome load_failure module :=
  match objects F (m_file m) with
  | None => Err (Unstatable (m_file m))
  | Some (_, obj_time) =>
      match sources F (m_file m) with
      | None => Err (Unstatable (m_file m))
      | Some (_, src_time) =>
          if obj_time <? src_time then Ok (with_flags m true true)
          else Ok (with_flags m (e_version E <? m_version m) (m_needs_eval m))
      end
  end.
(** module/mod.rs 147-163: the main module *)
Definition load_from_cache_from_filename (E : env) (F : fs) (p : module_path) (f : file) : outcome load_failure module :=
  match load_from_object F f with
  | Some m => do m <- check_if_is_dirty E F m; if m_dirty m then load_from_source E F p f else Ok m
  | None => load_from_source E F p f
  end.
(** module/mod.rs 165-182: the other modules *)
Definition load_from_cache (E : env) (F : fs) (p relative_to : module_path) : outcome load_failure module :=
  match load_from_object F (filename_relative_to p relative_to) with
  | Some m => check_if_is_dirty E F m
  | None => load_from_source E F p (filename_relative_to p relative_to)
  end.
(** module/mod.rs 184-204: the files afterwards, or [None] if writing fails *)
Definition write_object (E : env) (F : fs) (m : module) : option fs :=
  if e_writable E (m_file m)
  then Some {| sources := sources F;
               objects := fun f => if path_eqb f (m_file m) then Some (ODecoded m, e_now E) else objects F f |}
  else None.

(** ** The loader threads: module_loader/mod.rs 284-332 *)
(** module_loader/mod.rs 312-317 *)
Definition load_one (E : env) (F : fs) (use_cache : bool) (p relative_to : module_path) : outcome load_failure module :=
  if use_cache then load_from_cache E F p relative_to
  else load_from_source E F p (filename_relative_to p relative_to).
(** the maps behind the locks; [reads] is a ghost: which modules have been read, in order *)
Record shared := {
  attempted : list module_path;
  loaded : list (module_path * module);
  failed : list (module_path * load_failure);
  reads : list module_path;
}.
Definition no_modules : shared := {| attempted := []; loaded := []; failed := []; reads := [] |}.
(** A thread and the threads it waits for. [slot] is where [load_module] puts the module after its
    dependencies are loaded, [None] for the main module. *)
Inductive thread :=
| TStart (p relative_to : module_path)                                 (* spawned *)
| TLoad (slot : option module_path) (m : module)                       (* read; in [load], before the lock *)
| TJoin (slot : option module_path) (m : module) (kids : list thread)  (* waiting in thread::scope *)
| TFail (p : module_path) (e : load_failure)                           (* failed; not yet recorded *)
| TDone
| TPanicked
| TStuck.                                                              (* never finishes parsing; does not arise *)
(** module_loader/mod.rs 290-298: under the lock; the module paths that become [to_attempt] *)
Fixpoint reserve (attempted : list module_path) (req : list module_path) : list module_path :=
  match req with
  | [] => []
  | p :: req => if path_in p attempted then reserve attempted req else p :: reserve (p :: attempted) req
  end.
Definition finished (t : thread) : bool := match t with TDone | TPanicked => true | _ => false end.
Definition panicked (t : thread) : bool := match t with TPanicked => true | _ => false end.
Section Threads.
  Variable load_one : module_path -> module_path -> outcome load_failure module.
  (** one atomic step of one thread *)
  Inductive step : shared * thread -> shared * thread -> Prop :=
  | s_read sh p r :
      step (sh, TStart p r)
           ({| attempted := attempted sh; loaded := loaded sh; failed := failed sh; reads := reads sh ++ [p] |},
            match load_one p r with Ok m => TLoad (Some p) m | Err e => TFail p e | Panic => TPanicked | NoFuel => TStuck end)
  | s_failed sh p e :
      step (sh, TFail p e)
           ({| attempted := attempted sh; loaded := loaded sh; failed := pinsert p e (failed sh); reads := reads sh |}, TDone)
  | s_reserve sh slot m :
      let new := reserve (attempted sh) (m_requires m) in
      step (sh, TLoad slot m)
           ({| attempted := attempted sh ++ new; loaded := loaded sh; failed := failed sh; reads := reads sh |},
            TJoin slot m (map (fun q => TStart q (m_path m)) new))
  | s_kid sh sh' slot m a k k' b :
      step (sh, k) (sh', k') -> step (sh, TJoin slot m (a ++ k :: b)) (sh', TJoin slot m (a ++ k' :: b))
  | s_joined sh slot m kids :
      forallb finished kids = true -> existsb panicked kids = false ->
      step (sh, TJoin slot m kids)
           (match slot with
            | Some p => {| attempted := attempted sh; loaded := pinsert p m (loaded sh); failed := failed sh; reads := reads sh |}
            | None => sh
            end, TDone)
  | s_join_panics sh slot m kids :
      forallb finished kids = true -> existsb panicked kids = true -> step (sh, TJoin slot m kids) (sh, TPanicked).
  Inductive steps : shared * thread -> shared * thread -> Prop :=
  | st_refl c : steps c c
  | st_step c c' c'' : step c c' -> steps c' c'' -> steps c c''.
  (** [load(&main_module)] from scratch, module_loader/mod.rs 76: a run that came to an end *)
  Definition load_run (main : module) (sh : shared) (t : thread) : Prop :=
    steps (no_modules, TLoad None main) (sh, t) /\ finished t = true.
End Threads.

(** ** After loading *)
(** module_loader/mod.rs 117-158, as a relation on module paths: what the node of a path has edges to *)
Definition edges (main : module) (loaded : list (module_path * module)) (p : module_path) : list module_path :=
  (if path_eqb p (m_path main) then m_requires main else [])
  ++ match passoc p loaded with Some m => m_requires m | None => [] end.
(** number of nodes, counting a path once (module_loader/mod.rs 117-158) *)
Definition graph_nodes (main : module) (loaded : list (module_path * module)) : list module_path :=
  reserve [] (m_path main :: m_requires main ++ flat_map (fun pm => fst pm :: m_requires (snd pm)) loaded).
(** petgraph's all_simple_paths(from, to, 1, None): is there one? [visited] starts with [from]. *)
Fixpoint simple_path (fuel : nat) (next : module_path -> list module_path) (max : nat) (visited : list module_path)
  (cur to : module_path) : bool :=
  match fuel with
  | 0 => false
  | S fuel =>
      if length visited <? max
      then existsb (fun c => if path_eqb c to then 2 <=? length visited
                             else if path_in c visited then false
                             else simple_path fuel next max (c :: visited) c to) (next cur)
      else (2 <=? length visited) && existsb (fun c => path_eqb c to) (next cur)
  end.
(** module_loader/mod.rs 160-187: is [dirty_nodes] not empty? *)
Definition any_dirty (main : module) (loaded : list (module_path * module)) : bool :=
  let nodes := graph_nodes main loaded in
  existsb (fun p => match passoc p loaded with
                    | Some m => m_dirty m && simple_path (length nodes) (edges main loaded) (length nodes - 1) [m_path main] (m_path main) p
                    | None => false
                    end) nodes.

(** What compiling can report. *)
Inductive compile_error :=
| MainNotLoaded (e : load_failure)
| ModuleLoadErrors (l : list (module_path * load_failure))
| DependencyEval (p : module_path) (e : eval_error)
| NotWritten (f : file)
| MainEval (e : module_error).

(** module_loader/mod.rs 36-46: [ks] iterates the keys of the map as it was *)
Fixpoint eval_definitions (fuel : nat) (ord : str -> nat -> list str -> list str) (vars : bool) (ks : list str)
  (orig : list (str * node)) (sc : scope) : outcome eval_error scope :=
  match ks with
  | [] => Ok sc
  | k :: ks =>
      match assoc k orig with
      | None => eval_definitions fuel ord vars ks orig sc
      | Some n =>
          do n <- ast_eval fuel (ord k) sc None n;
          eval_definitions fuel ord vars ks orig
            (if vars
             then {| functions := functions sc; variables := assoc_insert k n (variables sc); exports := exports sc |}
             else {| functions := assoc_insert k n (functions sc); variables := variables sc; exports := exports sc |})
      end
  end.
(** module_loader/mod.rs 266-267 *)
Definition eval_scope (E : env) (p : module_path) (sc : scope) : outcome eval_error scope :=
  let ord := e_order E p in
  do sc <- eval_definitions (e_fuel E) ord true (e_keys E p (map fst (variables sc))) (variables sc) sc;
  eval_definitions (e_fuel E) ord false (e_keys E p (map fst (functions sc))) (functions sc) sc.
(** module_loader/mod.rs 256-264: [None] is the compiler_error (a panic) *)
Fixpoint merge_scopes (scopes : list (module_path * scope)) (req : list module_path) (sc : scope) : option scope :=
  match req with
  | [] => Some sc
  | p :: req => match passoc p scopes with Some dep => merge_scopes scopes req (scope_merge sc dep) | None => None end
  end.
(** module_loader/mod.rs 246-275 along the resolution order; the files are threaded through *)
Fixpoint eval_in_order (E : env) (use_cache : bool) (order : list module_path)
  (loaded : list (module_path * module)) (scopes : list (module_path * scope)) (F : fs)
  : outcome compile_error (list (module_path * module)) * fs :=
  match order with
  | [] => (Ok loaded, F)
  | p :: order =>
      match passoc p loaded with
      | None => eval_in_order E use_cache order loaded scopes F
      | Some m =>
          if negb (m_needs_eval m) then eval_in_order E use_cache order loaded scopes F
          else
            match merge_scopes scopes (rev (m_requires m)) (m_scope m) with
            | None => (Panic, F)
            | Some sc =>
                match eval_scope E p sc with
                | Ok sc =>
                    let m := with_scope m sc in
                    let rest F := eval_in_order E use_cache order (pinsert p m loaded) (pinsert (m_path m) sc scopes) F in
                    if use_cache
                    then match write_object E F m with Some F => rest F | None => (Err (NotWritten (m_file m)), F) end
                    else rest F
                | Err e => (Err (DependencyEval p e), F)
                | Panic => (Panic, F)
                | NoFuel => (NoFuel, F)
                end
            end
      end
  end.
(** module_loader/mod.rs 227-278 *)
Definition eval_dependencies (E : env) (use_cache : bool) (order : list module_path)
  (loaded : list (module_path * module)) (F : fs) : outcome compile_error (list (module_path * module)) * fs :=
  eval_in_order E use_cache order loaded (map (fun pm => (fst pm, m_scope (snd pm))) loaded) F.
(** module_loader/mod.rs 107-111: [None] is the panic of unwrap *)
Fixpoint merge_required (req : list module_path) (loaded : list (module_path * module)) (sc : scope) : option scope :=
  match req with
  | [] => Some sc
  | p :: req =>
      match passoc p loaded with
      | Some m => merge_required req (premove p loaded) (scope_merge sc (m_scope m))
      | None => None
      end
  end.
(** module_loader/mod.rs 96-115 *)
Definition merge_direct_dependencies (main : module) (loaded : list (module_path * module)) (failed : list (module_path * load_failure))
  : outcome compile_error module :=
  match failed with
  | _ :: _ => Err (ModuleLoadErrors failed)
  | [] => match merge_required (m_requires main) loaded (m_scope main) with
          | Some sc => Ok (with_scope main sc)
          | None => Panic
          end
  end.
(** module_loader/mod.rs 76-90 after loading. Reloading dirty modules (210-225) takes the write lock
    while the same thread holds the read lock: it never returns ([NoFuel]). So the loop runs once. *)
Definition load_main (E : env) (use_cache : bool) (main : module) (sh : shared) (order : list module_path) (F : fs)
  : outcome compile_error module * fs :=
  if any_dirty main (loaded sh) then (NoFuel, F)
  else
    let (r, F) := eval_dependencies E use_cache order (loaded sh) F in
    match r with
    | Ok ld => match merge_direct_dependencies main ld (failed sh) with
               | Ok m => (Ok (with_flags m false (m_needs_eval m)), F)
               | Err e => (Err e, F) | Panic => (Panic, F) | NoFuel => (NoFuel, F)
               end
    | Err e => (Err e, F) | Panic => (Panic, F) | NoFuel => (NoFuel, F)
    end.
(** compiler/mod.rs 54-72 *)
Definition finish (E : env) (use_cache : bool) (key_values : list (str * node)) (main : module) (F : fs)
  : outcome compile_error module * fs :=
  if m_needs_eval main then
    match main_eval (e_sheet E) (e_sched E) (m_program main) key_values with
    | Ok p =>
        let m := with_flags (with_program main p) (m_dirty main) false in
        if use_cache
        then match write_object E F m with Some F => (Ok m, F) | None => (Err (NotWritten (m_file m)), F) end
        else (Ok m, F)
    | Err e => (Err (MainEval e), F)
    | Panic => (Panic, F)
    | NoFuel => (NoFuel, F)
    end
  else (Ok main, F).
(** compiler/mod.rs 28-73, given how the loader threads ran and in which order tarjan_scc put the modules *)
Definition compile_with (E : env) (use_cache : bool) (key_values : list (str * node)) (main : module) (sh : shared) (t : thread)
  (order : list module_path) (F : fs) : outcome compile_error module * fs :=
  if panicked t then (Panic, F)
  else
    let (r, F) := load_main E use_cache main sh order F in
    match r with
    | Ok m => finish E use_cache key_values m F
    | Err e => (Err e, F) | Panic => (Panic, F) | NoFuel => (NoFuel, F)
    end.
