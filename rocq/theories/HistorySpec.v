(** * HistorySpec: what object files are left behind by earlier compilations. *)
From Verif Require Import Base Csvp Ast Eval Options CellParser AstParser Sheet Loader LoaderSpec.

(** The same compiler on the same machine: the same version, library functions and hash orders for the modules. The files that
    can be written, the time, and how the main sheet is evaluated may differ. *)
Definition same_compiler (E1 E2 : env) : Prop :=
  e_version E1 = e_version E2 /\ e_co E1 = e_co E2 /\ e_fuel E1 = e_fuel E2 /\ e_order E1 = e_order E2 /\ e_keys E1 = e_keys E2.
Fixpoint all_some {A} (l : list (option A)) : option (list A) :=
  match l with
  | [] => Some []
  | Some x :: l => match all_some l with Some r => Some (x :: r) | None => None end
  | None :: _ => None
  end.
(** What a module means by its source alone, looking [n] levels of imports deep: its imports are evaluated first, then put together with its own
    definitions, then these are evaluated. [None] if something in it cannot be read or evaluated, or imports itself. *)
Fixpoint meaning (n : nat) (E : env) (F : fs) (p : module_path) (f : file) : option scope :=
  match n with
  | 0 => None
  | S n =>
      match load_from_source E F p f with
      | Ok m =>
          match all_some (map (fun q => option_map (pair q) (meaning n E F q (filename_relative_to q p))) (m_requires m)) with
          | Some scopes =>
              match merge_scopes scopes (rev (m_requires m)) (m_scope m) with
              | Some sc => match eval_scope E p sc with Ok sc => Some sc | _ => None end
              | None => None
              end
          | None => None
          end
      | _ => None
      end
  end.
(** A library: modules that import only modules of the library; each name is one file and each file has one name. Each module has
    a meaning, and its definitions are done: evaluating them once more changes nothing. *)
Definition library (E : env) (F : fs) (Lib : module_path -> file -> Prop) : Prop :=
  (forall p f f', Lib p f -> Lib p f' -> f = f') /\ (forall p p' f, Lib p f -> Lib p' f -> p = p')
  /\ forall p f, Lib p f ->
       (exists n sc, meaning n E F p f = Some sc /\ eval_scope E p sc = Ok sc)
       /\ forall m q, load_from_source E F p f = Ok m -> In q (m_requires m) -> Lib q (filename_relative_to q p).
(** the main module [name] is not part of the library and imports only modules of the library, none of them twice *)
Definition uses_library (E : env) (F : fs) (Lib : module_path -> file -> Prop) (name : str) : Prop :=
  (forall f, ~ Lib [name] f) /\ (forall p, ~ Lib p [name])
  /\ forall main, load_from_source E F [name] [name] = Ok main -> NoDup (m_requires main) /\ forall q, In q (m_requires main) -> Lib q q.
(** the files of the library were written in the past *)
Definition in_the_past (E : env) (F : fs) (Lib : module_path -> file -> Prop) : Prop :=
  forall p f text t, Lib p f -> sources F f = Some (text, t) -> t <= e_now E.
Definition with_source (F : fs) (f : file) (s : option (str * nat)) : fs :=
  {| sources := fun g => if path_eqb g f then s else sources F g; objects := objects F |}.
Definition with_object (F : fs) (f : file) (o : option (object * nat)) : fs :=
  {| sources := sources F; objects := fun g => if path_eqb g f then o else objects F g |}.
(** What can happen in a directory with such a library: programs that use it are compiled, successfully or not, with any arguments, with
    the cache or without, or killed while the object files are being written; files outside of the library are changed at will;
    object files are removed or damaged (a file that was only partly written when the program was killed is damaged). *)
Inductive history (E0 : env) (F0 : fs) (Lib : module_path -> file -> Prop) : fs -> Prop :=
| h_start : (forall f, objects F0 f = None) -> history E0 F0 Lib F0
| h_compile F E use_cache kv name r F' : history E0 F0 Lib F -> same_compiler E0 E -> in_the_past E F Lib -> uses_library E F Lib name ->
    compiles E use_cache kv name F (r, F') -> history E0 F0 Lib F'
| h_killed F E name main sh order rest r F' : history E0 F0 Lib F -> same_compiler E0 E -> in_the_past E F Lib -> uses_library E F Lib name ->
    load_from_cache_from_filename E F [name] [name] = Ok main -> load_run (load_one E F true) main sh TDone -> resolution_order main (loaded sh) (order ++ rest) ->
    eval_dependencies E true order (loaded sh) F = (r, F') -> history E0 F0 Lib F'
| h_edit F f s : history E0 F0 Lib F -> (forall p, ~ Lib p f) -> history E0 F0 Lib (with_source F f s)
| h_lose F f t : history E0 F0 Lib F -> (forall m t', t <> Some (ODecoded m, t')) -> history E0 F0 Lib (with_object F f t).
