(** * FlagSpec: command lines that ask for the same. *)
From Verif Require Import Base Csvp Ast AstParser Options CellParser Sheet Loader LoaderSpec Targets Files Cli PropCli.

(** the formula that the arguments give a name: that of the last argument with the name *)
Definition given (o : oracle) (kvs : list str) (k : str) (n : node) : Prop :=
  exists before kv after, kvs = before ++ kv :: after /\ key_value o kv k n /\ forall kv' n', In kv' after -> ~ key_value o kv' k n'.
Definition same_arguments (o : oracle) (kvs kvs' : list str) : Prop := forall k n, given o kvs k n <-> given o kvs' k n.
(** the same input, output, and answers to: use the cache, make a backup, keep the values that are there *)
Definition same_request (a a' : cli_args) : Prop :=
  a_input a = a_input a' /\ a_output_filename a = a_output_filename a' /\ a_google_sheet_id a = a_google_sheet_id a'
  /\ a_no_cache a = a_no_cache a' /\ a_backup a = a_backup a' /\ a_safe a = a_safe a'.
(** the same compiler, files, clock; the credentials, the home directory, Excel and Google may differ *)
Definition same_files_world (w w' : world) : Prop :=
  w_env w = w_env w' /\ (forall t, w_read w t = w_read w' t) /\ (forall p, w_creatable w p = w_creatable w' p) /\ (forall p, w_writable w p = w_writable w' p)
  /\ w_now w = w_now w'.
(** the same module: its map of variables may have been filled in another order *)
Definition same_module (m m' : module) : Prop :=
  m_version m = m_version m' /\ m_path m = m_path m' /\ m_file m = m_file m' /\ m_dirty m = m_dirty m' /\ m_needs_eval m = m_needs_eval m'
  /\ pr_sheet (m_program m) = pr_sheet (m_program m') /\ pr_required (m_program m) = pr_required (m_program m')
  /\ functions (pr_scope (m_program m)) = functions (pr_scope (m_program m')) /\ exports (pr_scope (m_program m)) = exports (pr_scope (m_program m'))
  /\ forall x, assoc x (variables (pr_scope (m_program m))) = assoc x (variables (pr_scope (m_program m'))).
(** the same directory: the same sources, the same object files *)
Definition same_directory (S S' : fs) : Prop :=
  (forall f, sources S f = sources S' f)
  /\ forall f, objects S f = objects S' f \/ exists m m' t, objects S f = Some (ODecoded m, t) /\ objects S' f = Some (ODecoded m', t) /\ same_module m m'.
