(** * ProgramSpec: what a program (one file) means: which text its output holds at which place. Nothing here mentions
    scopes, rounds of replacing, the order of anything, expansion of rows or the cache. *)
From Verif Require Import Base Csvp Ast Eval EvalSpec Options Sheet SheetSpec.

(** ** Names of places, in exactly one spelling *)
Definition numeral (b : str) (n : nat) : Prop := all_digits b = true /\ digits_value b = N.of_nat n /\ hd_error b <> Some 48%N.
Definition cell_name (t : str) (x y : nat) : Prop :=
  exists a b, t = a ++ b /\ letters a /\ letters_value a = N.of_nat (S x) /\ numeral b (S y).
Definition rows_name (t : str) (y1 y2 : nat) : Prop := exists a b, t = a ++ [c_colon] ++ b /\ numeral a (S y1) /\ numeral b (S y2).
Definition column_name (t : str) (x y1 y2 : nat) : Prop := exists a b, t = a ++ [c_colon] ++ b /\ cell_name a x y1 /\ cell_name b x y2.

(** ** Where the rows of the source are in the output *)
Definition first_row (rows : list row) (i : nat) : nat := offset (room rows) rows i.
Definition row_after (rows : list row) (i : nat) (r : row) : nat := first_row rows i + copies (room rows) r.
(** every fill stands for at least one row, ends within the first 1000 rows, and if it is unbounded nothing follows *)
Definition good_fills (rows : list row) : Prop :=
  forall i r, nth_error rows i = Some r -> row_fill r <> None ->
    0 < copies (room rows) r /\ row_after rows i r <= 1000 /\ (unbounded r -> S i = length rows).

(** ** Names of cells and rows *)
(** [refers rows t here text]: seen from the output row [here], a name bound to the target [t] of the source is the reference [text]:
    the one cell (row) if there is one, the one of the own row within a fill, all of them from outside. *)
Definition refers (rows : list row) (t : target) (here : nat) (text : str) : Prop :=
  exists r, let i := match t with TRow y => y | TCell _ y => y end in
  nth_error rows i = Some r /\
  let first := first_row rows i in let after := row_after rows i r in
  match row_fill r, t with
  | None, TCell x _ => cell_name text x first
  | None, TRow _ => rows_name text first first
  | Some _, TCell x _ => (first <= here < after /\ cell_name text x here) \/ (~ first <= here < after /\ column_name text x first (after - 1))
  | Some _, TRow _ => (first <= here < after /\ rows_name text here here) \/ (~ first <= here < after /\ rows_name text first (after - 1))
  end.
(** The value of a name, seen from a row of the output: what the code section says; else the cell or row that is called so; else what
    the command line says. *)
Inductive value_of (p : program) (args : list (str * node)) (here : nat) (x : str) : node -> Prop :=
| v_code nm e : assoc x (variables (pr_scope p)) = Some (NVar nm (VAst e)) -> value_of p args here x e
| v_sheet t f text : assoc x (variables (pr_scope p)) = None -> last_binding (pr_sheet p) x t f -> refers (sheet_rows (pr_sheet p)) t here text ->
    value_of p args here x (NRef text)
| v_arg e : assoc x (variables (pr_scope p)) = None -> (forall t f, ~ binds (pr_sheet p) x t f) -> assoc x args = Some e -> value_of p args here x e.

(** ** The meaning of a formula in the output row [here] *)
Inductive means (p : program) (args : list (str * node)) (here : nat) : node -> node -> Prop :=
| m_leaf n : leaf n = true -> means p args here n n
| m_name x v m : value_of p args here x v -> means p args here v m -> means p args here (NRef x) m
| m_unknown x : (forall v, ~ value_of p args here x v) -> means p args here (NRef x) (NRef x)
| m_infix l l' op r r' : means p args here l l' -> means p args here r r' -> means p args here (NInfix l op r) (NInfix l' op r')
| m_call f es ps body nm m : assoc f (functions (pr_scope p)) = Some (NFn ps body nm) -> length es = length ps ->
    means p args here (subst (combine ps es) body) m -> means p args here (NCall es f) m
| m_other_call f es ms : assoc f (functions (pr_scope p)) = None -> Forall2 (means p args here) es ms ->
    means p args here (NCall es f) (NCall ms f).
(** nothing in the formula is defined *)
Definition finished (p : program) (args : list (str * node)) (here : nat) (n : node) : Prop :=
  (forall x v, In x (ref_names n) -> ~ value_of p args here x v) /\ (forall f, In f (call_names n) -> assoc f (functions (pr_scope p)) = None).

(** ** Conditions *)
(** [x] is the second or a later parameter of a function *)
Definition second_parameter (p : program) (x : str) : Prop :=
  exists f ps body nm, assoc f (functions (pr_scope p)) = Some (NFn ps body nm) /\ In x (tl ps).
(** Nothing but the body of a function mentions a name that is a second or later parameter of a function (C20_capture_refuted). *)
Definition uncaptured_names (p : program) (args : list (str * node)) : Prop :=
  (forall r c n x, In r (sheet_rows (pr_sheet p)) -> In c (row_cells r) -> cell_ast c = Some n -> In x (ref_names n) -> ~ second_parameter p x)
  /\ (forall here y v x, value_of p args here y v -> In x (ref_names v) -> ~ second_parameter p x)
  /\ (forall f ps body nm x, assoc f (functions (pr_scope p)) = Some (NFn ps body nm) -> In x (ref_names body) -> ~ In x ps -> ~ second_parameter p x).
(** No name is defined by way of itself: there are ranks, below [bound], that go down. *)
Definition no_circles (p : program) (args : list (str * node)) (bound : nat) : Prop :=
  exists rank : str -> nat, (forall x, rank x < bound)
    /\ forall here x v y w, value_of p args here x v -> In y (ref_names v) -> value_of p args here y w -> rank y < rank x.
(** Calls: the right number of arguments, and no call of a function of the program inside an argument of another one. *)
Definition calls_nothing (p : program) (n : node) : Prop := forall f, In f (call_names n) -> assoc f (functions (pr_scope p)) = None.
Fixpoint flat (p : program) (n : node) : Prop :=
  match n with
  | NCall es f =>
      (forall ps body nm, assoc f (functions (pr_scope p)) = Some (NFn ps body nm) -> length es = length ps /\ Forall (calls_nothing p) es)
      /\ (fix go l := match l with [] => True | e :: r => flat p e /\ go r end) es
  | NInfix l _ r => flat p l /\ flat p r
  | _ => True
  end.
Definition flat_calls (p : program) (args : list (str * node)) (bound : nat) : Prop :=
  (forall r c n, In r (sheet_rows (pr_sheet p)) -> In c (row_cells r) -> cell_ast c = Some n -> flat p n)
  /\ (forall here x v, value_of p args here x v -> calls_nothing p v)
  /\ (forall f ps body nm, assoc f (functions (pr_scope p)) = Some (NFn ps body nm) -> flat p body)
  /\ exists rank : str -> nat, (forall f, rank f < bound)
     /\ forall f ps body nm g, assoc f (functions (pr_scope p)) = Some (NFn ps body nm) -> In g (call_names body) ->
          assoc g (functions (pr_scope p)) <> None -> rank g < rank f.

(** ** The output *)
(** what may be written for a cell in the output row [here], whatever the program: a cell without formula as itself; a formula as a text
    that means the same and, if nothing defined is left in it, is the meaning *)
Definition written (p : program) (args : list (str * node)) (here : nat) (c : cell) (text : str) : Prop :=
  match cell_ast c with
  | None => text = parsed_value c
  | Some n => exists n', text = c_eq :: show n' /\ (forall m, means p args here n m <-> means p args here n' m)
                         /\ (finished p args here n' -> means p args here n n')
  end.
(** the meaning is written *)
Definition meant (p : program) (args : list (str * node)) (here : nat) (c : cell) (text : str) : Prop :=
  match cell_ast c with
  | None => text = parsed_value c
  | Some n => exists n', means p args here n n' /\ finished p args here n' /\ text = c_eq :: show n'
  end.
(** the output is a table with a row for each copy of each row of the source, and the cells of that row in it, as [how] says *)
Definition output_rows (p : program) (how : nat -> cell -> str -> Prop) (out : list (list str)) : Prop :=
  let rows := sheet_rows (pr_sheet p) in
  length out = total (room rows) rows
  /\ forall i r k, nth_error rows i = Some r -> k < copies (room rows) r ->
     exists texts, nth_error out (first_row rows i + k) = Some texts /\ Forall2 (how (first_row rows i + k)) (row_cells r) texts.
