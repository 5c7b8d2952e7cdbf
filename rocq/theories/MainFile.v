(** * MainFile: the main module by its file name, with any extension.
    Loader.v has the main file as a .csvpp; here files are known by their full names in one directory. Simplified: only programs without
    imports are run (imported modules are always .csvpp files, see Loader.v). In a module of this file, [m_file] is the full name. *)
From Verif Require Import Base Csvp Ast AstParser Eval Options CellParser Sheet Loader Files.

(** the files of a directory: sources by name, object files by name; the number is the modification time *)
Record folder := { fo_sources : str -> option (str * nat); fo_objects : str -> option (object * nat) }.
(** source_code/mod.rs 74-78 [object_code_filename], and module/mod.rs 81 *)
Definition object_name (f : str) : str := set_extension (lit "csvpo") f.
(** module_path/try_from.rs 18-29 for a file without directories *)
Definition main_path (f : str) : module_path := [set_extension [] f].
(** [source_code.filename] of a module *)
Definition recorded (m : module) : str := match m_file m with [f] => f | _ => [] end.
(** module/mod.rs 119-145 *)
Definition folder_source (E : env) (D : folder) (f : str) : outcome load_failure module :=
  match fo_sources D f with
  | None => Err (Unreadable [f])
  | Some (text, _) =>
      match load_source (e_co E) text with
      | Ok prog => Ok {| m_version := e_version E; m_path := main_path f; m_program := prog; m_file := [f]; m_dirty := false; m_needs_eval := true |}
      | Err e => Err (BadSource [f] e)
      | Panic => Panic
      | NoFuel => NoFuel
      end
  end.
(** module/mod.rs 214-263: the times are those of the files the object file names *)
Definition folder_check (E : env) (D : folder) (m : module) : outcome load_failure module :=
  match fo_objects D (object_name (recorded m)) with
  | None => Err (Unstatable (m_file m))
  | Some (_, obj_time) =>
      match fo_sources D (recorded m) with
      | None => Err (Unstatable (m_file m))
      | Some (_, src_time) =>
          if obj_time <? src_time then Ok (with_flags m true true)
          else Ok (with_flags m (e_version E <? m_version m) (m_needs_eval m))
      end
  end.
(** module/mod.rs 147-163 *)
Definition folder_load (E : env) (D : folder) (f : str) : outcome load_failure module :=
  match fo_objects D (object_name f) with
  | Some (ODecoded m, _) => do m <- folder_check E D m; if m_dirty m then folder_source E D f else Ok m
  | Some (OGarbage, _) | None => folder_source E D f
  end.
(** module/mod.rs 184-204 *)
Definition folder_write (E : env) (D : folder) (m : module) : option folder :=
  if e_writable E (m_file m)
  then Some {| fo_sources := fo_sources D;
               fo_objects := fun o => if str_eqb o (object_name (recorded m)) then Some (ODecoded m, e_now E) else fo_objects D o |}
  else None.
(** compiler/mod.rs 54-72 *)
Definition folder_finish (E : env) (use_cache : bool) (key_values : list (str * node)) (main : module) (D : folder) : outcome compile_error module * folder :=
  if m_needs_eval main then
    match main_eval (e_sheet E) (e_sched E) (m_program main) key_values with
    | Ok p =>
        let m := with_flags (with_program main p) (m_dirty main) false in
        if use_cache
        then match folder_write E D m with Some D => (Ok m, D) | None => (Err (NotWritten (m_file m)), D) end
        else (Ok m, D)
    | Err e => (Err (MainEval e), D)
    | Panic => (Panic, D)
    | NoFuel => (NoFuel, D)
    end
  else (Ok main, D).
(** compiler/mod.rs 28-73 for a main module without imports (module_loader/mod.rs 56-91 then only clears [is_dirty]). *)
Inductive folder_runs (E : env) (use_cache : bool) (key_values : list (str * node)) (f : str) (D : folder) : outcome compile_error module * folder -> Prop :=
| fr_run m : folder_load E D f = Ok m -> m_requires m = [] ->
    folder_runs E use_cache key_values f D (folder_finish E use_cache key_values (with_flags m false (m_needs_eval m)) D)
| fr_failed e : folder_load E D f = Err e -> folder_runs E use_cache key_values f D (Err (MainNotLoaded e), D)
| fr_panic : folder_load E D f = Panic -> folder_runs E use_cache key_values f D (Panic, D).
