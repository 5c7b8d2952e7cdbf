(** * Ast: syntax trees of the formula language, their printing, scopes. *)
From Verif Require Import Base Csvp.

(** Library behaviour the model leaves abstract beside the Unicode tables: [f64_canon s] is the
    text printed by Rust's [Display] for the [f64] that [s.parse::<f64>()] returns, or [None] when
    the text is rejected. A float in the model *is* that text (floats are only ever parsed,
    copied, compared and printed by this program). *)
Record oracle := {
  o_unicode : unicode;
  f64_canon : str -> option str;
}.

(** ** The a1 crate (not in /repo; behaviour fixed by the repo's tests)
    Rows and columns are 0-based indices ([a1::Row.y], [a1::Column.x]); [a1::Address] is the
    record [address] of Csvp.v. *)

(** Column letters: A..Z, AA.. (bijective base 26), most significant first.
    Models [a1::Column]'s Display. *)
Fixpoint col_name_fuel (fuel n : nat) : str :=
  match fuel with
  | 0 => []
  | S f =>
      let c := (65 + N.of_nat (n mod 26))%N in
      if n <? 26 then [c] else col_name_fuel f (n / 26 - 1) ++ [c]
  end.
Definition col_name (n : nat) : str := col_name_fuel (S n) n.
(** 1-based row number, [a1::Row]'s Display inside an address. *)
Definition row_name (n : nat) : str := dec (N.of_nat (S n)).
(** [a1::Address] Display: e.g. F12. *)
Definition show_address (a : address) : str := col_name (addr_x a) ++ row_name (addr_y a).
(** [a1::A1] of a single row, Display: 2:2 (row/mod.rs and spreadsheet tests). *)
Definition show_row (r : nat) : str := row_name r ++ [c_colon] ++ row_name r.
(** [a1::row_range(a, b)] Display: 21:40. *)
Definition show_row_range (a b : nat) : str := row_name a ++ [c_colon] ++ row_name b.
(** [row_range.with_x(x)] Display: F21:F40. *)
Definition show_col_range (x a b : nat) : str :=
  show_address {| addr_x := x; addr_y := a |} ++ [c_colon] ++ show_address {| addr_x := x; addr_y := b |}.

(** ** Fills: src/cell_options/fill/mod.rs 9-41 *)
Definition ROW_MAX : nat := 1000.
Record fill := { fill_amount : option nat; start_row : nat }.
(** fill/mod.rs 17-24 *)
Definition fill_clone_to_row (f : fill) (r : nat) : fill :=
  {| fill_amount := fill_amount f; start_row := r |}.
(** fill/mod.rs 26-33 *)
Definition fill_end_row (f : fill) : nat :=
  match fill_amount f with
  | Some a => Nat.min (start_row f + a) ROW_MAX
  | None => ROW_MAX
  end.
(** fill/into.rs 4-9: the A1 range of a fill is [start_row .. end_row.shift_up(1)]; [shift_up] is
    modelled as saturating at row 0. *)
Definition fill_last_row (f : fill) : nat := fill_end_row f - 1.
(** [A1::contains] of that row range, as used in ast/variable_value.rs 66 and 82. *)
Definition fill_contains (f : fill) (a : address) : bool :=
  (start_row f <=? addr_y a) && (addr_y a <=? fill_last_row f).

(** ** Nodes: src/ast/node.rs 5-76, src/ast/variable_value.rs 7-48
    [Ast] (ast/mod.rs 31) is a box around [Node] and is not distinguished. *)
Inductive sign := Negative | Positive.
Inductive node :=
| NBool (b : bool)
| NDate (text : str)                                   (* only its Display is used *)
| NFloat (percentage : bool) (sg : option sign) (text : str)
| NFn (args : list str) (body : node) (name : str)
| NCall (args : list node) (name : str)
| NInfix (left : node) (operator : str) (right : node)
| NInt (percentage : bool) (sg : option sign) (value : Z)
| NRef (r : str)
| NText (t : str)
| NVar (name : str) (value : variable_value)
with variable_value :=
| VAbsolute (a : address)
| VAst (n : node)
| VColumnRelative (column : nat) (f : fill)
| VRow (r : nat)
| VRowRelative (r : nat) (f : fill).

(** Depth-first size, used as a measure. *)
Fixpoint node_size (n : node) : nat :=
  match n with
  | NFn _ b _ => S (node_size b)
  | NCall args _ => S ((fix go l := match l with [] => 0 | x :: r => node_size x + go r end) args)
  | NInfix l _ r => S (node_size l + node_size r)
  | NVar _ v => S (match v with VAst a => node_size a | _ => 0 end)
  | _ => 1
  end.

(** ** Display: src/ast/display.rs 4-107 *)
(** display.rs 4-11 *)
Definition show_sign (s : option sign) : str :=
  match s with Some Positive => [c_plus] | Some Negative => [c_minus] | None => [] end.
Definition show_pct (p : bool) : str := if p then [c_percent] else [].
(** Display of an i64. *)
Definition show_Z (z : Z) : str :=
  match z with
  | Z0 => dec 0
  | Zpos p => dec (Npos p)
  | Zneg p => c_minus :: dec (Npos p)
  end.
(** display.rs 13-107 *)
Fixpoint show (n : node) : str :=
  match n with
  | NBool b => if b then lit "TRUE" else lit "FALSE"
  | NDate d => d
  | NFloat p s v => show_sign s ++ v ++ show_pct p
  | NFn args body name => name ++ lit "(" ++ join (lit ", ") args ++ lit ") " ++ show body
  | NCall args name => name ++ lit "(" ++ join (lit ", ") (map show args) ++ lit ")"
  | NInfix l op r => lit "(" ++ show l ++ [c_space] ++ op ++ [c_space] ++ show r ++ lit ")"
  | NInt p s v => show_sign s ++ show_Z v ++ show_pct p
  | NRef r => r
  | NText t => [c_dquote] ++ t ++ [c_dquote]
  | NVar name v => name ++ lit " := " ++ show_value v
  end
with show_value (v : variable_value) : str :=
  match v with
  | VAbsolute a => show_address a
  | VAst n => show n
  | VColumnRelative x f => show_col_range x (start_row f) (fill_last_row f)
  | VRow r => row_name r                     (* a1::Row's own Display *)
  | VRowRelative _ f => show_row_range (start_row f) (fill_last_row f)
  end.

(** ** Reading a variable's value: src/ast/variable_value.rs 50-108
    [None] position is the non-spreadsheet context, in which relative values are a
    [compiler_error], i.e. a panic. *)
Definition into_ast (v : variable_value) (position : option address) : outcome unit node :=
  match position with
  | Some p =>
      match v with
      | VAbsolute a => Ok (NRef (show_address a))
      | VAst n => Ok n
      | VColumnRelative x f =>
          if fill_contains f p
          then Ok (NRef (show_address {| addr_x := x; addr_y := addr_y p |}))
          else Ok (NRef (show_col_range x (start_row f) (fill_last_row f)))
      | VRow r => Ok (NRef (show_row r))
      | VRowRelative _ f =>
          if fill_contains f p
          then Ok (NRef (show_row (addr_y p)))
          else Ok (NRef (show_row_range (start_row f) (fill_last_row f)))
      end
  | None =>
      match v with
      | VAbsolute a => Ok (NRef (show_address a))
      | VAst n => Ok n
      | VRow r => Ok (NRef (show_row r))
      | VColumnRelative _ _ | VRowRelative _ _ => Panic
      end
  end.

(** ** Scopes: src/scope/mod.rs 6-57
    Maps are association lists; the list order stands for the hash iteration order. *)
Record scope := {
  functions : list (str * node);
  variables : list (str * node);
  exports : list str;
}.
(** #[derive(Default)] *)
Definition empty_scope : scope := {| functions := []; variables := []; exports := [] |}.
Definition set_insert (k : str) (l : list str) : list str := if str_in k l then l else l ++ [k].
(** scope/mod.rs 14-19: [vars] first, then the scope's own variables override. *)
Definition merge_variables (sc : scope) (vars : list (str * node)) : scope :=
  {| functions := functions sc;
     variables := fold_left (fun m kv => assoc_insert (fst kv) (snd kv) m) (variables sc)
                    (fold_left (fun m kv => assoc_insert (fst kv) (snd kv) m) vars []);
     exports := exports sc |}.
(** scope/mod.rs 21-29 *)
Definition define_function (sc : scope) (name : str) (n : node) : scope :=
  {| functions := assoc_insert name n (functions sc); variables := variables sc;
     exports := set_insert name (exports sc) |}.
(** scope/mod.rs 31-39 *)
Definition define_variable (sc : scope) (name : str) (n : node) : scope :=
  {| functions := functions sc; variables := assoc_insert name n (variables sc);
     exports := set_insert name (exports sc) |}.
(** scope/mod.rs 46-48 and 51-53: insert unless the key is there *)
Definition insert_new (k : str) (o : option node) (m : list (str * node)) : list (str * node) :=
  match o with
  | Some v => if has_key k m then m else assoc_insert k v m
  | None => m
  end.
(** scope/mod.rs 43-56 *)
Definition merge_export (other sc : scope) (e : str) : scope :=
  {| functions := insert_new e (assoc e (functions other)) (functions sc);
     variables := insert_new e (assoc e (variables other)) (variables sc);
     exports := exports sc |}.
Definition scope_merge (sc other : scope) : scope :=
  fold_left (merge_export other) (exports other) sc.
