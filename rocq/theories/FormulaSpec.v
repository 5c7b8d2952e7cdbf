(** * FormulaSpec: what the formula language is, independently of the parser's algorithm. *)
From Verif Require Import Base Csvp Ast AstLexer AstParser.

(** The infix operators a formula can contain. *)
Definition infix_ops : list str :=
  [lit "^"; lit "*"; lit "/"; lit "+"; lit "-"; lit "&";
   lit "="; lit "<"; lit ">"; lit "<="; lit ">="; lit "<>"].

(** ** Grammar of expressions over tokens (no precedence: which reading is chosen is C11/C12)
    [expr_of o ts n]: the token sequence [ts], read completely, can denote the tree [n]. *)
Definition is_operand (t : token) : bool :=
  match t with
  | TBoolean | TDoubleQuotedString | TFloat | TInteger | TReference => true
  | _ => false
  end.
Inductive expr_of (o : oracle) : list tok -> node -> Prop :=
| e_operand t s n :
    is_operand t = true -> ast_try_from o (t, s) = inr n -> expr_of o [(t, s)] n
| e_paren a b ts n :
    expr_of o ts n -> expr_of o ((TOpenParen, a) :: ts ++ [(TCloseParen, b)]) n
| e_plus ts n n' :
    expr_of o ts n -> apply_sign Positive n = Some n' -> expr_of o ((TOperator, lit "+") :: ts) n'
| e_minus ts n n' :
    expr_of o ts n -> apply_sign Negative n = Some n' -> expr_of o ((TOperator, lit "-") :: ts) n'
| e_percent ts n n' :
    expr_of o ts n -> apply_percent n = Some n' -> expr_of o (ts ++ [(TOperator, lit "%")]) n'
| e_call f a ts b args id :
    expr_of o f (NRef id) -> args_of o ts args ->
    expr_of o (f ++ (TOpenParen, a) :: ts ++ [(TCloseParen, b)]) (NCall args id)
| e_infix ls rs l op r :
    expr_of o ls l -> In op infix_ops -> expr_of o rs r ->
    expr_of o (ls ++ (TOperator, op) :: rs) (NInfix l op r)
with args_of (o : oracle) : list tok -> list node -> Prop :=
| a_nil : args_of o [] []
| a_comma s ts args : args_of o ts args -> args_of o ((TComma, s) :: ts) args
| a_arg es ts n args : expr_of o es n -> args_of o ts args -> args_of o (es ++ ts) (n :: args).

(** Every comma and every closing parenthesis of the token list is inside parentheses ([d] is the
    number of parentheses open at the start). *)
Fixpoint closed_at (d : nat) (ts : list tok) : bool :=
  match ts with
  | [] => true
  | (TOpenParen, _) :: r => closed_at (S d) r
  | (TCloseParen, _) :: r => match d with 0 => false | S d' => closed_at d' r end
  | (TComma, _) :: r => match d with 0 => false | S _ => closed_at d r end
  | _ :: r => closed_at d r
  end.

(** ** Identifiers, printable trees *)

(** Text the lexer reads as one reference: reference characters and an optional final dot, not
    starting with a digit or with one of the keywords, and not the keyword fn. *)
Definition ident (u : unicode) (s : str) : bool :=
  match s with
  | [] => false
  | c :: _ =>
      negb (is_digit u c)
      && (let body := match rev s with x :: b => if (x =? c_dot)%N then rev b else s | [] => s end in
          match body with [] => false | _ => forallb (ref_char u) body end)
      && negb (starts_with (lit "use") s) && negb (starts_with (lit "true") s)
      && negb (starts_with (lit "false") s)
  end.

(** decimal text with a dot *)
Definition decimal_text (v : str) : Prop :=
  exists a b, v = a ++ c_dot :: b /\ all_digits a = true /\ forallb is_ascii_digit b = true.

(** ** Facts about Rust's f64 parsing and printing used by C10 (hypotheses on the oracle):
    a decimal text is accepted, and is printed either as a whole number without leading zeros, or
    as a decimal text that prints as itself, or as inf. *)
Definition f64_ok (o : oracle) : Prop :=
  forall s v, f64_canon o s = Some v ->
    (exists n, v = dec n)
    \/ (decimal_text v /\ f64_canon o v = Some v)
    \/ v = lit "inf".

(** Trees whose printed text the parser reads back. What it excludes, compared with what the
    parser can produce: strings containing a double quote, the identifier fn, and numbers
    written with a decimal point whose value is a whole number over i64::MAX or infinite. *)
Fixpoint tame (n : node) : Prop :=
  match n with
  | NBool _ => True
  | NFloat _ _ v => v <> lit "inf" /\ (forall k, v = dec k -> (k <= I64_MAX)%N)
  | NInt _ _ _ => True
  | NRef r => r <> lit "fn"
  | NText t => forallb (fun c => negb (c =? c_dquote)%N) t = true
  | NCall args name => name <> lit "fn" /\ (fix go l := match l with [] => True | x :: r => tame x /\ go r end) args
  | NInfix l _ r => tame l /\ tame r
  | NFn _ b _ => tame b
  | NDate _ | NVar _ _ => True
  end.

(** Trees made of what formulas are written with: booleans, floats in printed form, non-negative
    64-bit integers with sign and percent, names, strings without double quotes, calls and infix
    expressions (the parser never builds a negative integer: the sign is kept apart). *)
Inductive printable (o : oracle) : node -> Prop :=
| p_bool b : printable o (NBool b)
| p_whole p s n : (n <= I64_MAX)%N -> printable o (NFloat p s (dec n))
| p_frac p s v : decimal_text v -> f64_canon o v = Some v -> printable o (NFloat p s v)
| p_int p s v : (0 <= v <= Z.of_N I64_MAX)%Z -> printable o (NInt p s v)
| p_ref r : ident (o_unicode o) r = true -> r <> lit "fn" -> printable o (NRef r)
| p_text t : forallb (fun c => negb (c =? c_dquote)%N) t = true -> printable o (NText t)
| p_call args name : ident (o_unicode o) name = true -> name <> lit "fn" ->
    Forall (printable o) args -> printable o (NCall args name)
| p_infix l op r : In op infix_ops -> printable o l -> printable o r -> printable o (NInfix l op r).

(** The tree that a printed tree denotes: TRUE and FALSE are read as names, and a float whose text
    has no decimal point is read as an integer. *)
Definition whole_text (v : str) : bool := all_digits v.
Fixpoint canonical (n : node) : node :=
  match n with
  | NBool b => NRef (show (NBool b))
  | NFloat p s v => if whole_text v then NInt p s (Z.of_N (digits_value v)) else n
  | NCall args name => NCall (map canonical args) name
  | NInfix l op r => NInfix (canonical l) op (canonical r)
  | _ => n
  end.

(** ** Unparenthesised operator chains *)
Inductive chain := Operand (n : node) | Chain (l : chain) (op : str) (r : chain).
(** its text: operands printed on their own (an operand that is itself an infix expression is
    printed in parentheses), operators between spaces, no other parentheses *)
Fixpoint chain_text (c : chain) : str :=
  match c with
  | Operand n => show n
  | Chain l op r => chain_text l ++ [c_space] ++ op ++ [c_space] ++ chain_text r
  end.
(** the tree with this grouping *)
Fixpoint chain_tree (c : chain) : node :=
  match c with
  | Operand n => canonical n
  | Chain l op r => NInfix (chain_tree l) op (chain_tree r)
  end.
(** precedence of the operator at the top of a chain; operands bind tightest *)
Definition top_class (c : chain) : nat :=
  match c with
  | Operand _ => 16
  | Chain _ op _ => match infix_class op with Some p => p | None => 0 end
  end.
(** Grouping by precedence, to the right among equals: the left part of an operator is made of
    tighter operators only, the right part of operators at least as tight. *)
Fixpoint right_grouped (c : chain) : Prop :=
  match c with
  | Operand _ => True
  | Chain l op r => right_grouped l /\ right_grouped r /\ In op infix_ops
                    /\ top_class (Chain l op r) < top_class l
                    /\ top_class (Chain l op r) <= top_class r
  end.
(** the same with equals grouped to the left, as spreadsheets do *)
Fixpoint left_grouped (c : chain) : Prop :=
  match c with
  | Operand _ => True
  | Chain l op r => left_grouped l /\ left_grouped r /\ In op infix_ops
                    /\ top_class (Chain l op r) <= top_class l
                    /\ top_class (Chain l op r) < top_class r
  end.
(** every operand is printable *)
Fixpoint chain_ok (o : oracle) (c : chain) : Prop :=
  match c with
  | Operand n => printable o n
  | Chain l _ r => chain_ok o l /\ chain_ok o r
  end.

(** ** What a formula over integers with + - * is worth in a spreadsheet *)
Fixpoint num_value (n : node) : option Z :=
  match n with
  | NInt false None v => Some v
  | NInfix l op r =>
      match num_value l, num_value r with
      | Some a, Some b =>
          if str_eqb op (lit "+") then Some (a + b)%Z
          else if str_eqb op (lit "-") then Some (a - b)%Z
          else if str_eqb op (lit "*") then Some (a * b)%Z
          else None
      | _, _ => None
      end
  | _ => None
  end.

(** Every tail of the text that is longer than 50 bytes can be cut after exactly 50 bytes. *)
Definition cuttable (s : str) : Prop :=
  forall a r, s = a ++ r -> utf8_len r <= 50 \/ exists x y, r = x ++ y /\ utf8_len x = 50.
