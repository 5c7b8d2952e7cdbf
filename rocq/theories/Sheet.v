(** * Sheet: model of src/spreadsheet, Row::eval and the per-module part of src/module. *)
From Verif Require Import Base Csvp SourceCode Ast AstParser Eval Options CellParser.

(** spreadsheet/mod.rs 12-16 *)
Record spreadsheet := { sheet_rows : list row; fills_expanded : bool }.

(** ** Fills *)
(** spreadsheet/mod.rs 154-168 *)
Definition is_infinite (r : row) : bool :=
  match row_fill r with Some f => match fill_amount f with None => true | Some _ => false end | None => false end.
Fixpoint multiple_infinite (saw : bool) (rs : list row) : bool :=
  match rs with
  | [] => false
  | r :: rs => if is_infinite r then if saw then true else multiple_infinite true rs else multiple_infinite saw rs
  end.
Definition has_multiple_infinite_expands (s : spreadsheet) : bool := multiple_infinite false (sheet_rows s).
(** spreadsheet/mod.rs 170-176; [usize] arithmetic is not bounded in the model *)
Definition rows_left_over (s : spreadsheet) : nat :=
  ROW_MAX - fold_left (fun acc r => acc + match row_fill r with
                                          | Some f => match fill_amount f with Some a => a | None => 0 end
                                          | None => 1
                                          end) (sheet_rows s) 0.
(** spreadsheet/mod.rs 46-49 *)
Definition with_fill (f : fill) (r : row) : row :=
  {| row_cells := row_cells r; row_options := row_options r; row_fill := Some f; row_var := row_var r |}.
(** spreadsheet/mod.rs 40-56: [rows] and [row_num] are the accumulators of the loop *)
Definition expand_step (left_over : nat) (acc : list row * nat) (r : row) : list row * nat :=
  let (rows, row_num) := acc in
  match row_fill r with
  | Some f =>
      let new_fill := fill_clone_to_row f row_num in
      let n := match fill_amount new_fill with Some a => a | None => left_over end in
      (rows ++ repeat (with_fill new_fill r) n, row_num + n)
  | None => (rows ++ [r], row_num + 1)
  end.
(** spreadsheet/mod.rs 24-62; [None] is the EvalError of lines 28-33 *)
Definition eval_fills (s : spreadsheet) : option spreadsheet :=
  if fills_expanded s then Some s
  else if has_multiple_infinite_expands s then None
  else Some {| sheet_rows := fst (fold_left (expand_step (rows_left_over s)) (sheet_rows s) ([], 0));
               fills_expanded := true |}.

(** ** Variables: spreadsheet/mod.rs 94-144 *)
Definition row_reference (y : nat) (r : row) (x : str) : node :=
  match row_fill r with
  | Some f => NVar x (VRowRelative y f)
  | None => NVar x (VRow y)
  end.
Definition cell_reference (y : nat) (r : row) (i : nat) (x : str) : node :=
  match row_fill r with
  | Some f => NVar x (VColumnRelative i f)
  | None => NVar x (VAbsolute {| addr_x := i; addr_y := y |})
  end.
Fixpoint cell_variables (y : nat) (r : row) (i : nat) (cs : list cell) (vars : list (str * node)) : list (str * node) :=
  match cs with
  | [] => vars
  | c :: cs =>
      cell_variables y r (S i) cs
        (match cell_var c with Some x => assoc_insert x (cell_reference y r i x) vars | None => vars end)
  end.
Fixpoint row_variables (y : nat) (rs : list row) (vars : list (str * node)) : list (str * node) :=
  match rs with
  | [] => vars
  | r :: rs =>
      let vars := match row_var r with Some x => assoc_insert x (row_reference y r x) vars | None => vars end in
      row_variables (S y) rs (cell_variables y r 0 (row_cells r) vars)
  end.
Definition sheet_variables (s : spreadsheet) : list (str * node) := row_variables 0 (sheet_rows s) [].

(** spreadsheet/mod.rs 146-152 *)
Definition widest_row (s : spreadsheet) : nat :=
  fold_left (fun m r => Nat.max m (length (row_cells r))) (sheet_rows s) 0.

(** ** Parsing: spreadsheet/mod.rs 65-88 *)
Inductive load_error :=
| BadCsv (e : csvp_error) | BadCell (e : located_error) | BadCode (e : parse_error).
Fixpoint parse_rows (co : cell_oracle) (rs : list (list field)) : outcome load_error (list row) :=
  match rs with
  | [] => Ok []
  | fs :: rs =>
      do r <- match row_parse co fs with Ok r => Ok r | Err e => Err (BadCell e) | Panic => Panic | NoFuel => NoFuel end;
      do rs <- parse_rows co rs;
      Ok (r :: rs)
  end.
Definition sheet_parse (co : cell_oracle) (src : source_code) : outcome load_error spreadsheet :=
  do rs <- match csvp_parse {| separator := c_comma; lines_above := length_of_code_section src |} (csv_section src) with
           | Ok rs => Ok rs | Err e => Err (BadCsv e) | Panic => Panic | NoFuel => NoFuel
           end;
  do rows <- parse_rows co rs;
  Ok {| sheet_rows := rows; fills_expanded := false |}.

(** ** Evaluation *)
(** source_code/errors.rs eval_error: where the error happened (None: not at a cell) and what it was *)
Inductive module_error :=
| MultipleInfiniteFills
| CellEval (a : address) (e : eval_error).
(** [eval_env]: how much fuel each formula gets ([NoFuel] stands for not terminating) and the hash
    iteration orders met while evaluating the formula at an address *)
Record eval_env := { ev_fuel : nat; ev_order : address -> nat -> list str -> list str }.
(** row/mod.rs 34-55 *)
Fixpoint eval_cells (ev : eval_env) (sc : scope) (y x : nat) (cs : list cell) : outcome module_error (list cell) :=
  match cs with
  | [] => Ok []
  | c :: cs =>
      let a := {| addr_x := x; addr_y := y |} in
      do ast <- match cell_ast c with
                | Some n => match ast_eval (ev_fuel ev) (ev_order ev a) sc (Some a) n with
                            | Ok m => Ok (Some m) | Err e => Err (CellEval a e) | Panic => Panic | NoFuel => NoFuel
                            end
                | None => Ok None
                end;
      do cs <- eval_cells ev sc y (S x) cs;
      Ok ({| cell_ast := ast; cell_field := cell_field c; parsed_value := parsed_value c;
             cell_options := cell_options c; cell_var := cell_var c |} :: cs)
  end.
Definition row_eval (ev : eval_env) (sc : scope) (y : nat) (r : row) : outcome module_error row :=
  do cs <- eval_cells ev sc y 0 (row_cells r);
  Ok {| row_cells := cs; row_options := row_options r; row_fill := row_fill r; row_var := row_var r |}.
(** rayon's [into_par_iter().enumerate().map(..).collect::<Result<Vec<_>>>()] (module/mod.rs 52-57):
    the results are in order; when some fail, which failure is returned depends on the schedule:
    [sched] lists row indices in the order in which failures are noticed. *)
Definition is_ok {E A} (x : outcome E A) : bool := match x with Ok _ => true | _ => false end.
Fixpoint collect {E A} (xs : list (outcome E A)) : outcome E (list A) :=
  match xs with
  | [] => Ok []
  | x :: xs => do a <- x; do r <- collect xs; Ok (a :: r)
  end.
Definition fail_as {E A B} (x : outcome E A) : outcome E (list B) :=
  match x with Err e => Err e | NoFuel => NoFuel | _ => Panic end.
Fixpoint first_failure {E A} (xs : list (outcome E A)) (sched : list nat) : option (outcome E A) :=
  match sched with
  | [] => None
  | i :: sched =>
      match nth_error xs i with
      | Some x => if is_ok x then first_failure xs sched else Some x
      | None => first_failure xs sched
      end
  end.
Definition par_collect {E A} (sched : list nat) (xs : list (outcome E A)) : outcome E (list A) :=
  match first_failure xs sched with
  | Some x => fail_as x
  | None => collect xs
  end.
Fixpoint mapi {A B} (f : nat -> A -> B) (i : nat) (l : list A) : list B :=
  match l with [] => [] | x :: l => f i x :: mapi f (S i) l end.

(** module/mod.rs 22-32. [source_code] is represented by the file name it came from in Loader.v;
    [compiler_version] and the dirty flags belong to caching and are there as well. *)
Record program := { pr_scope : scope; pr_sheet : spreadsheet; pr_required : list module_path }.
(** module/mod.rs 125-145: loading one file *)
Definition load_source (co : cell_oracle) (text : str) : outcome load_error program :=
  let src := source_code_new text in
  do (sc, req) <- match code_section src with
                  | Some s => match code_section_parse (co_oracle co) s with
                              | Ok x => Ok x | Err e => Err (BadCode e) | Panic => Panic | NoFuel => NoFuel
                              end
                  | None => Ok (empty_scope, [])
                  end;
  do sheet <- sheet_parse co src;
  Ok {| pr_scope := sc; pr_sheet := sheet; pr_required := req |}.
(** module/mod.rs 35-43 *)
Definition module_eval_fills (p : program) : outcome module_error program :=
  match eval_fills (pr_sheet p) with
  | Some s => Ok {| pr_scope := pr_scope p; pr_sheet := s; pr_required := pr_required p |}
  | None => Err MultipleInfiniteFills
  end.
(** module/mod.rs 47-50 *)
Definition sheet_scope (p : program) (external : list (str * node)) : scope :=
  merge_variables (merge_variables (pr_scope p) (sheet_variables (pr_sheet p))) external.
(** module/mod.rs 45-67 *)
Definition eval_spreadsheet (ev : eval_env) (sched : list nat) (p : program) (external : list (str * node))
  : outcome module_error program :=
  let sc := sheet_scope p external in
  do rows <- par_collect sched (mapi (row_eval ev sc) 0 (sheet_rows (pr_sheet p)));
  Ok {| pr_scope := sc;
        pr_sheet := {| sheet_rows := rows; fills_expanded := fills_expanded (pr_sheet p) |};
        pr_required := pr_required p |}.
(** compiler/mod.rs 93-98 *)
Definition main_eval (ev : eval_env) (sched : list nat) (p : program) (external : list (str * node))
  : outcome module_error program :=
  do p <- module_eval_fills p; eval_spreadsheet ev sched p external.
