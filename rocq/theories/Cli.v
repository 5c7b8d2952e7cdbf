(** * Cli: model of src/cli_args.rs, src/config, src/compiler/try_from.rs, src/compiler/mod.rs 28-73 as far as Loader.v has not got it,
    src/logger.rs, src/main.rs and src/target/google_sheets/credentials.rs: a whole run of the program.

    Simplifications. The splitting of the command line into flags is clap's and not modelled: a run starts from [cli_args]. The main file
    has the extension .csvpp, and the program is run from its directory. The files of the modules ([fs], Loader.v) and the targets and
    their backups ([files], Files.v) are kept apart: the target is none of the sources (what happens when it is: PropDisk.v). Writing an Excel file and the Google API are
    parameters of the [world] (what would be sent is in Targets.v). *)
From Verif Require Import Base Csvp Ast AstParser Eval Options Sheet Loader LoaderSpec Targets Files.

(** cli_args.rs 6-92 *)
Record cli_args := {
  a_backup : bool; a_google_sheet_id : option str; a_credentials : option str; a_key_values : list str; a_no_cache : bool;
  a_output_filename : option path; a_safe : bool; a_sheet_name : option str; a_verbose : N; a_x_offset : N; a_y_offset : N; a_input : path
}.
Inductive level := LError | LWarn | LInfo | LDebug | LTrace.
(** config/mod.rs 14-23 *)
Record config := {
  c_backup : bool; c_credentials : option str; c_key_values : list (str * node); c_offset : N * N; c_overwrite_values : bool;
  c_sheet_name : str; c_use_cache : bool; c_verbosity : level
}.
Inductive credentials_error := NoHome | NoCredentials | MissingCredentials (file : str).
(** what [main] can print *)
Inductive program_error :=
| BadKeyValue (e : option parse_error)   (* ast_parser.rs 74-87 *)
| NoBaseName                             (* config/mod.rs 41-44 *)
| TooVerbose (v : N)                     (* logger.rs 12-14 *)
| BadOutput (e : output_error)           (* output/mod.rs, output/try_from.rs *)
| NoInputName                            (* compiler/mod.rs 37-42 *)
| BadCredentials (e : credentials_error) (* credentials.rs *)
| Unsuccessful (e : main_error)          (* compiling, backup, CSV target *)
| ExcelFailed (message : str)            (* target/excel *)
| GoogleFailed (message : str).          (* target/google_sheets/mod.rs *)

(** logger.rs 4-17 *)
Definition u8_into_level_filter (v : N) : outcome program_error level :=
  match v with
  | 0%N => Ok LError
  | 1%N => Ok LWarn
  | 2%N => Ok LInfo
  | 3%N => Ok LDebug
  | 4%N => Ok LTrace
  | _ => Err (TooVerbose v)
  end.
(** config/mod.rs 35-47 *)
Definition sheet_name (a : cli_args) : outcome program_error str :=
  match a_sheet_name a with
  | Some n => Ok n
  | None => match file_stem (a_input a) with Some n => Ok n | None => Err NoBaseName end
  end.
(** config/try_from.rs 9-20 *)
Definition config_try_from (a : cli_args) : outcome program_error config :=
  do name <- sheet_name a;
  do verbosity <- u8_into_level_filter (a_verbose a);
  Ok {| c_backup := a_backup a; c_credentials := a_credentials a; c_key_values := []; c_offset := (a_x_offset a, a_y_offset a);
        c_overwrite_values := negb (a_safe a); c_sheet_name := name; c_use_cache := negb (a_no_cache a); c_verbosity := verbosity |}.
(** compiler/try_from.rs 10-16: what comes before the logger is set up. Fields that are given are evaluated before the base struct. *)
Definition config_of (o : oracle) (a : cli_args) : outcome program_error config :=
  match parse_key_values o (a_key_values a) [] with
  | Ok kv =>
      do c <- config_try_from a;
      Ok {| c_backup := c_backup c; c_credentials := c_credentials c; c_key_values := kv; c_offset := c_offset c;
            c_overwrite_values := c_overwrite_values c; c_sheet_name := c_sheet_name c; c_use_cache := c_use_cache c; c_verbosity := c_verbosity c |}
  | Err e => Err (BadKeyValue e)
  | Panic => Panic
  | NoFuel => NoFuel
  end.

(** ** Google credentials *)
(** credentials.rs 13-34, on unix *)
Definition adc_path (home : option str) : option str :=
  match home with Some h => Some (h ++ lit "/.config/gcloud/application_default_credentials.json") | None => None end.
(** credentials.rs 39-66: [flag] is --google-account-credentials, [var] the value of GOOGLE_APPLICATION_CREDENTIALS *)
Definition credentials_file (home flag var : option str) (present : str -> bool) : outcome credentials_error str :=
  match adc_path home with
  | None => Err NoHome
  | Some adc =>
      do file <- match flag with
                 | Some f => Ok f
                 | None => match var with
                           | Some f => Ok f
                           | None => if present adc then Ok adc else Err NoCredentials
                           end
                 end;
      if present file then Ok file else Err (MissingCredentials file)
  end.

(** ** Excel workbooks *)
(** the worksheets of a workbook by name, in order; umya_spreadsheet finds one by its exact name and adds new ones at the end *)
Definition workbook V := list (str * worksheet V).
Definition empty_worksheet {V} : worksheet V := {| ws_cells := fun _ => None; ws_comments := []; ws_validations := [] |}.
(** excel/mod.rs 165-178 *)
Definition create_worksheet {V} (name : str) (b : workbook V) : workbook V :=
  match assoc name b with Some _ => b | None => b ++ [(name, empty_worksheet)] end.
(** excel/mod.rs 180-192 and compilation_target.rs 12-21: the first worksheet of that name is changed *)
Fixpoint change_worksheet {V} (name : str) (change : worksheet V -> worksheet V) (b : workbook V) : option (workbook V) :=
  match b with
  | [] => None
  | (n, w) :: b => if str_eqb name n then Some ((n, change w) :: b)
                   else match change_worksheet name change b with Some b => Some ((n, w) :: b) | None => None end
  end.
(** compilation_target.rs 12-30 without the reading and writing of the file (153-163 of mod.rs: no file is an empty workbook) *)
Definition write_workbook {V} (c : config) (s : spreadsheet) (b : workbook V) : option (workbook V) :=
  change_worksheet (c_sheet_name c) (build_worksheet (c_overwrite_values c) s) (create_worksheet (c_sheet_name c) b).

(** batch_update_builder.rs 37-48, 94-112 with the configuration: [sheet_id: None] in the requests stands for the sheet with the id 0 *)
Definition google_write {V} (c : config) (ex : list (list (existing V))) (s : spreadsheet) : outcome unit (list (request V)) :=
  google_requests (c_overwrite_values c) (c_offset c) ex (sheet_rows s).

(** ** The run *)
Inductive written := Written | NotWrittenBecause (e : program_error) | WriterCrashed.
(** everything outside the program *)
Record world := {
  w_env : env;                                        (* compiling, Loader.v *)
  w_read : str -> option (list (list str));           (* the csv crate's reader *)
  w_creatable : path -> bool; w_writable : path -> bool; w_now : clock;
  w_excel : config -> path -> spreadsheet -> files -> written * files;
  w_google_backup : str -> str -> written;            (* credentials file, sheet id *)
  w_google : config -> str -> str -> spreadsheet -> written;
  w_home : option str; w_credentials_var : option str; w_present : str -> bool
}.
(** output/mod.rs 21-31; google_sheets/mod.rs [new] looks for the credentials. The result is the credentials file, if one is needed. *)
Definition target (w : world) (c : config) (o : output_kind) : outcome program_error str :=
  match o with
  | OutGoogleSheets _ =>
      match credentials_file (w_home w) (c_credentials c) (w_credentials_var w) (w_present w) with
      | Ok f => Ok f
      | Err e => Err (BadCredentials e)
      | Panic => Panic
      | NoFuel => NoFuel
      end
  | _ => Ok []
  end.
(** the [write_backup] of the four targets *)
Definition write_backup (w : world) (o : output_kind) (credentials : str) (F : files) : written * files :=
  match o with
  | OutCsv p | OutExcel p | OutOpenDocument p =>
      match backup_file (w_creatable w) (w_now w) F p with
      | (Ok _, F) => (Written, F)
      | (Err e, F) => (NotWrittenBecause (Unsuccessful (BackupFailed e)), F)
      | (_, F) => (WriterCrashed, F)
      end
  | OutGoogleSheets id => (w_google_backup w credentials id, F)
  end.
(** the [write] of the four targets; that of open_document/mod.rs 21-23 is a todo *)
Definition write_target (w : world) (c : config) (o : output_kind) (credentials : str) (s : spreadsheet) (F : files) : written * files :=
  match o with
  | OutCsv p =>
      match write_csv (w_read w) (w_writable w p) (c_overwrite_values c) p s F with
      | (Done, F) => (Written, F)
      | (Failure e, F) => (NotWrittenBecause (Unsuccessful e), F)
      | (_, F) => (WriterCrashed, F)
      end
  | OutExcel p => w_excel w c p s F
  | OutOpenDocument _ => (WriterCrashed, F)
  | OutGoogleSheets id => (w_google w c credentials id s, F)
  end.
(** How a run ends: exit status 0; exit status 1, with what is printed; a panic (which prints a message of its own); never. *)
Inductive ended := Exit0 | Exit1 (printed : option program_error) | EndsInPanic | NeverEnds.
(** main.rs 11-17, after compiling *)
Definition deliver (w : world) (c : config) (o : output_kind) (m : module) (F : files) : ended * files :=
  match target w c o with
  | Ok credentials =>
      let write F := match write_target w c o credentials (pr_sheet (m_program m)) F with
                     | (Written, F) => (Exit0, F)
                     | (NotWrittenBecause e, F) => (Exit1 (Some e), F)
                     | (WriterCrashed, F) => (EndsInPanic, F)
                     end in
      if c_backup c
      then match write_backup w o credentials F with
           | (Written, F) => write F
           | (NotWrittenBecause e, F) => (Exit1 (Some e), F)
           | (WriterCrashed, F) => (EndsInPanic, F)
           end
      else write F
  | Err e => (Exit1 (Some e), F)
  | Panic => (EndsInPanic, F)
  | NoFuel => (NeverEnds, F)
  end.
(** main.rs 7-25 with compiler/mod.rs 28-73, 78-80: [S] are the modules' files, [F] the others. [error!] in main.rs 22 prints something
    only after [logger::init], compiler/try_from.rs 18; before that the log crate has no logger and drops it. *)
Inductive runs (w : world) (a : cli_args) (S : fs) (F : files) : ended -> fs -> files -> Prop :=
| r_not_set_up e : config_of (co_oracle (e_co (w_env w))) a = Err e -> runs w a S F (Exit1 None) S F
| r_set_up_panics : config_of (co_oracle (e_co (w_env w))) a = Panic -> runs w a S F EndsInPanic S F
| r_bad_output c e : config_of (co_oracle (e_co (w_env w))) a = Ok c ->
    choose_output (o_unicode (co_oracle (e_co (w_env w)))) (a_google_sheet_id a) (a_output_filename a) = Err e ->
    runs w a S F (Exit1 (Some (BadOutput e))) S F
| r_no_input_name c o : config_of (co_oracle (e_co (w_env w))) a = Ok c ->
    choose_output (o_unicode (co_oracle (e_co (w_env w)))) (a_google_sheet_id a) (a_output_filename a) = Ok o ->
    p_name (a_input a) = None -> runs w a S F (Exit1 (Some NoInputName)) S F
| r_compiled c o name r S' : config_of (co_oracle (e_co (w_env w))) a = Ok c ->
    choose_output (o_unicode (co_oracle (e_co (w_env w)))) (a_google_sheet_id a) (a_output_filename a) = Ok o ->
    p_name (a_input a) = Some name -> compiles (w_env w) (c_use_cache c) (c_key_values c) (fst (stem_and_extension name)) S (r, S') ->
    runs w a S F (fst (match r with
                       | Ok m => deliver w c o m F
                       | Err e => (Exit1 (Some (Unsuccessful (Failed e))), F)
                       | Panic => (EndsInPanic, F)
                       | NoFuel => (NeverEnds, F)
                       end)) S'
                 (snd (match r with Ok m => deliver w c o m F | _ => (EndsInPanic, F) end)).
