(** * Parallel: compilations that run at the same time in one directory.
    Each file operation of src/module/mod.rs sees the directory as it is at that moment; between two of them the other compilations may write
    object files. Simplifications: reading a file, and looking up its time, are single steps; a file that is being written (fs::write,
    module/mod.rs 197, truncates it first) is one that does not decode until all of it is there, also when two programs write it at the same time. *)
From Verif Require Import Base Csvp Ast Eval Options CellParser AstParser Sheet Loader LoaderSpec HistorySpec.

(** The states of a directory over time, the latest first: [G2] is [G1] or a later state *)
Definition no_later (T : list fs) (G1 G2 : fs) : Prop := exists a b, T = a ++ G1 :: b /\ In G2 (a ++ [G1]).
(** what fs::metadata says: the object file's time at one moment, the source's at another (module/mod.rs 214-263) *)
Definition looked_up (G2 G3 : fs) : fs := {| sources := sources G3; objects := objects G2 |}.
(** module/mod.rs 165-182: the object file is read in the state [G1], times are looked up in [G2] and [G3]; if there is no object file, the source is read in [G3] *)
Definition load_while (E : env) (use_cache : bool) (G1 G2 G3 : fs) (p relative_to : module_path) : outcome load_failure module :=
  let f := filename_relative_to p relative_to in
  if use_cache
  then match load_from_object G1 f with Some m => check_if_is_dirty E (looked_up G2 G3) m | None => load_from_source E G3 p f end
  else load_from_source E G3 p f.
(** module/mod.rs 147-163: the same for the main module, whose source is read in [G4] *)
Definition main_while (E : env) (G1 G2 G3 G4 : fs) (name : str) : outcome load_failure module :=
  match load_from_object G1 [name] with
  | Some m => do m <- check_if_is_dirty E (looked_up G2 G3) m; if m_dirty m then load_from_source E G4 [name] [name] else Ok m
  | None => load_from_source E G4 [name] [name]
  end.
Definition main_among (T : list fs) (E : env) (name : str) (r : outcome load_failure module) : Prop :=
  exists G1 G2 G3 G4, no_later T G1 G2 /\ In G3 T /\ In G4 T /\ r = main_while E G1 G2 G3 G4 name.
(** Every module is read at most once (C28), so a function tells what each reading gave. *)
Definition loads_among (T : list fs) (E : env) (use_cache : bool) (load : module_path -> module_path -> outcome load_failure module) : Prop :=
  forall p r, exists G1 G2 G3, no_later T G1 G2 /\ In G3 T /\ load p r = load_while E use_cache G1 G2 G3 p r.
(** A compilation that reads in the states [T]: what comes of it and, in a directory of its own, what it writes. (Nothing else it does depends on the files.) *)
Definition nothing : fs := {| sources := fun _ => None; objects := fun _ => None |}.
Inductive run_among (T : list fs) (E : env) (use_cache : bool) (key_values : list (str * node)) (name : str) : outcome compile_error module * fs -> Prop :=
| ra_run main load sh t order : main_among T E name (Ok main) -> loads_among T E use_cache load -> load_run load main sh t -> resolution_order main (loaded sh) order ->
    run_among T E use_cache key_values name (compile_with E use_cache key_values main sh t order nothing)
| ra_main_failed e : main_among T E name (Err e) -> run_among T E use_cache key_values name (Err (MainNotLoaded e), nothing)
| ra_main_panics : main_among T E name Panic -> run_among T E use_cache key_values name (Panic, nothing).
(** What a compilation that has read in the states [T] may be writing: the module of an import after those before it in the order, that of the
    main module, or a part of one of these. *)
Inductive writes_among (T : list fs) (E : env) (name : str) (f : file) : object -> Prop :=
| wa_import main load sh order rest r W o t : main_among T E name (Ok main) -> loads_among T E true load -> load_run load main sh TDone ->
    resolution_order main (loaded sh) (order ++ rest) -> eval_dependencies E true order (loaded sh) nothing = (r, W) -> objects W f = Some (o, t) -> writes_among T E name f o
| wa_main key_values r W o t : run_among T E true key_values name (r, W) -> objects W f = Some (o, t) -> writes_among T E name f o
| wa_part o : writes_among T E name f o -> writes_among T E name f OGarbage.
(** The states of a directory in which programs that use a library are compiled at the same time, any number of them, as often as one likes. It starts with
    a directory in which that has been going on, but not at the same time. Each compilation has read in the states since it began. *)
Inductive timeline (E0 : env) (F0 : fs) (Lib : module_path -> file -> Prop) : list fs -> Prop :=
| tl_start F : history E0 F0 Lib F -> timeline E0 F0 Lib [F]
| tl_write recent before F E name f o : timeline E0 F0 Lib (recent ++ before) -> hd_error recent = Some F ->
    same_compiler E0 E -> in_the_past E F Lib -> (forall G, In G recent -> uses_library E G Lib name) -> writes_among recent E name f o ->
    timeline E0 F0 Lib (with_object F f (Some (o, e_now E)) :: recent ++ before)
| tl_edit F T f s : timeline E0 F0 Lib (F :: T) -> (forall p, ~ Lib p f) -> timeline E0 F0 Lib (with_source F f s :: F :: T).
