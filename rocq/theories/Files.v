(** * Files: model of src/output, src/target/file_backer_upper.rs, src/config/try_from.rs and src/main.rs.

    A path is a directory and a file name; [None] as file name stands for the paths for which std::path's
    [file_name] gives None (empty, a root, or ending in two dots). *)
From Verif Require Import Base Csvp Ast Options Sheet Loader Targets.

Record path := { p_dir : list str; p_name : option str }.
(** std::path: split a file name at its last dot. A leading dot does not count. *)
Fixpoint last_dot (s : str) : option (str * str) :=
  match s with
  | [] => None
  | c :: r => match last_dot r with
              | Some (a, b) => Some (c :: a, b)
              | None => if (c =? c_dot)%N then Some ([], r) else None
              end
  end.
Definition stem_and_extension (name : str) : str * option str :=
  match last_dot name with
  | None => (name, None)
  | Some ([], _) => (name, None)
  | Some (a, b) => (a, Some b)
  end.
Definition file_stem (p : path) : option str := option_map (fun n => fst (stem_and_extension n)) (p_name p).
Definition extension (p : path) : option str := match p_name p with Some n => snd (stem_and_extension n) | None => None end.
(** PathBuf::set_extension *)
Definition set_extension (ext name : str) : str :=
  fst (stem_and_extension name) ++ match ext with [] => [] | _ => c_dot :: ext end.

(** ** Which output: src/output *)
Inductive output_kind := OutCsv (p : path) | OutExcel (p : path) | OutOpenDocument (p : path) | OutGoogleSheets (id : str).
Inductive output_error := NoExtension | UnsupportedExtension (e : str) | BadSheetId | NoOutput.
Definition same_ignoring_case (a : str) (b : string) : bool := str_eqb (ascii_lower a) (ascii_lower (lit b)).
(** output/mod.rs 40-62 with the supports_extension of target/csv/mod.rs 30, target/excel/mod.rs 33, target/open_document/mod.rs 34 *)
Definition from_filename (p : path) : outcome output_error output_kind :=
  match extension p with
  | None => Err NoExtension
  | Some e =>
      if same_ignoring_case e "csv" then Ok (OutCsv p)
      else if same_ignoring_case e "xlsx" || same_ignoring_case e "xlsm" || same_ignoring_case e "xltx" || same_ignoring_case e "xltm"
      then Ok (OutExcel p)
      else if same_ignoring_case e "ods" then Ok (OutOpenDocument p)
      else Err (UnsupportedExtension e)
  end.
(** output/mod.rs 64-72 *)
Definition from_google_sheet_id (u : unicode) (id : str) : outcome output_error output_kind :=
  if forallb (is_alnum u) id then Ok (OutGoogleSheets id) else Err BadSheetId.
(** output/try_from.rs 6-16 *)
Definition choose_output (u : unicode) (sheet_id : option str) (output_filename : option path) : outcome output_error output_kind :=
  match sheet_id, output_filename with
  | Some id, _ => from_google_sheet_id u id
  | None, Some p => from_filename p
  | None, None => Err NoOutput
  end.

(** ** Backups: target/file_backer_upper.rs *)
(** chrono's local time; the year is taken to be between 0 and 9999 *)
Record clock := { year : N; month : N; day : N; hour : N; minute : N; second : N; nanosecond : N }.
Definition pad0 (w : nat) (n : N) : str := repeat 48%N (w - length (dec n)) ++ dec n.
Definition hour12 (h : N) : N := (if h mod 12 =? 0 then 12 else h mod 12)%N.
Definition am_pm (h : N) : str := if (h <? 12)%N then lit "AM" else lit "PM".
(** file_backer_upper.rs 7-16 *)
Definition timestamps (t : clock) : list str :=
  let date := pad0 4 (year t) ++ lit "_" ++ pad0 2 (month t) ++ lit "_" ++ pad0 2 (day t) in
  let hm := date ++ lit "-" ++ pad0 2 (hour12 (hour t)) ++ lit "_" ++ pad0 2 (minute t) in
  let hms := hm ++ lit "_" ++ pad0 2 (second t) in
  [date; hm ++ am_pm (hour t); hms ++ am_pm (hour t); hms ++ lit "_" ++ pad0 9 (nanosecond t) ++ am_pm (hour t)].
(** file_backer_upper.rs 51-53 *)
Definition backup_name (p : path) (stem ext timestamp : str) : path :=
  {| p_dir := p_dir p; p_name := Some (set_extension ext (stem ++ lit "-" ++ timestamp)) |}.
(** files: their contents, [None] where there is none *)
Definition files := path -> option str.
Fixpoint strs_eqb (a b : list str) : bool :=
  match a, b with
  | [], [] => true
  | x :: a, y :: b => str_eqb x y && strs_eqb a b
  | _, _ => false
  end.
Definition file_eqb (p q : path) : bool :=
  strs_eqb (p_dir p) (p_dir q)
  && match p_name p, p_name q with Some a, Some b => str_eqb a b | None, None => true | _, _ => false end.
Definition write_file (F : files) (p : path) (contents : str) : files := fun q => if file_eqb q p then Some contents else F q.
(** [creatable]: may a file of that name be created? (permissions, disk) *)
Inductive backup_error := NoStem | NoBackupExtension | CopyFailed (p : path) | AllNamesTaken.
(** file_backer_upper.rs 48-57, 68-70 *)
Fixpoint first_unused (F : files) (candidates : list path) : option path :=
  match candidates with
  | [] => None
  | q :: candidates => match F q with Some _ => first_unused F candidates | None => Some q end
  end.
(** file_backer_upper.rs 23-57, 68-70: the name for the backup *)
Definition backup_path (now : clock) (F : files) (p : path) : outcome backup_error path :=
  match file_stem p with
  | None => Err NoStem
  | Some stem =>
      match extension p with
      | None => Err NoBackupExtension
      | Some ext => match first_unused F (map (backup_name p stem ext) (timestamps now)) with
                    | None => Err AllNamesTaken
                    | Some q => Ok q
                    end
      end
  end.
(** fs::copy (file_backer_upper.rs 59-65); it replaces a file that is there. A failing copy is taken to leave nothing behind. *)
Definition copy_file (creatable : path -> bool) (F : files) (p q : path) : outcome backup_error path * files :=
  match F p with
  | Some contents => if creatable q then (Ok q, write_file F q contents) else (Err (CopyFailed q), F)
  | None => (Err (CopyFailed q), F)
  end.
(** file_backer_upper.rs 23-71, when nothing else happens in between *)
Definition backup_file (creatable : path -> bool) (now : clock) (F : files) (p : path) : outcome backup_error path * files :=
  match backup_path now F p with
  | Ok q => copy_file creatable F p q
  | Err e => (Err e, F)
  | _ => (Panic, F)
  end.

(** ** The whole program: src/main.rs 7-18, for CSV output *)
Inductive main_error := Failed (e : compile_error) | BackupFailed (e : backup_error) | TargetUnreadable | TargetUnwritable.
Inductive main_result := Done | Failure (e : main_error) | Crashed | Hangs.
(** [read] is the csv crate's reader on the contents of a file, [None] for an error; [writable]: can the target be opened for writing? *)
Definition write_csv (read : str -> option (list (list str))) (writable overwrite : bool) (p : path) (s : spreadsheet) (F : files)
  : main_result * files :=
  match (match F p with Some text => read text | None => Some [] end) with
  | None => (Failure TargetUnreadable, F)
  | Some records =>
      if writable then (Done, write_file F p (csv_text (csv_write overwrite records s))) else (Failure TargetUnwritable, F)
  end.
Definition main_program (read : str -> option (list (list str))) (creatable : path -> bool) (writable : bool) (now : clock)
  (backup overwrite : bool) (p : path) (compiled : outcome compile_error module) (F : files) : main_result * files :=
  match compiled with
  | Ok m =>
      let sheet := pr_sheet (m_program m) in
      if backup
      then match backup_file creatable now F p with
           | (Ok _, F) => write_csv read writable overwrite p sheet F
           | (Err e, F) => (Failure (BackupFailed e), F)
           | (_, F) => (Crashed, F)
           end
      else write_csv read writable overwrite p sheet F
  | Err e => (Failure (Failed e), F)
  | Panic => (Crashed, F)
  | NoFuel => (Hangs, F)
  end.

(** The states in which a run that is killed may leave the files: while copying, and while writing the new contents over the old. That a copy
    or a write that has returned is on the disk is assumed. *)
Inductive crash_state (read : str -> option (list (list str))) (creatable : path -> bool) (writable : bool) (now : clock)
  (backup overwrite : bool) (p : path) (compiled : outcome compile_error module) (F : files) : files -> Prop :=
| cs_before : crash_state read creatable writable now backup overwrite p compiled F F
| cs_copying m q contents n : compiled = Ok m -> backup = true -> backup_path now F p = Ok q -> F p = Some contents -> creatable q = true ->
    crash_state read creatable writable now backup overwrite p compiled F (write_file F q (firstn n contents))
| cs_writing m F' records n : compiled = Ok m ->
    (if backup then exists q, backup_file creatable now F p = (Ok q, F') else F' = F) ->
    (match F' p with Some text => read text | None => Some [] end) = Some records -> writable = true ->
    crash_state read creatable writable now backup overwrite p compiled F
      (write_file F' p (firstn n (csv_text (csv_write overwrite records (pr_sheet (m_program m)))))).
