(** * GrammarSpec: the grammar of formulas and of code sections, tier by tier.
    Every tier says which sequences of tokens it contains and which tree each of them denotes. There is nothing of the parser's
    algorithm (binding powers, loops, lookahead) in it. [code]: whether the formula stands in a code section. *)
From Verif Require Import Base Ast AstLexer AstParser FormulaSpec.

(** how tightly an operator binds *)
Inductive binds_tier : str -> nat -> Prop :=
| b_compare op : In op [lit "="; lit "<"; lit ">"; lit "<="; lit ">="; lit "<>"] -> binds_tier op 1
| b_concat : binds_tier (lit "&") 2
| b_add op : In op [lit "+"; lit "-"] -> binds_tier op 3
| b_mul op : In op [lit "*"; lit "/"] -> binds_tier op 4
| b_power : binds_tier (lit "^") 5.

Definition open_paren : tok := (TOpenParen, lit "(").
Definition begins (k : token) (ts : list tok) : Prop := exists s r, ts = (k, s) :: r.
(** what may follow an argument before the closing parenthesis: nothing or a comma; in a code section the comma may be missing
    before a name *)
Definition after_argument (code : bool) (ts : list tok) : Prop := ts = [] \/ begins TComma ts \/ (code = true /\ begins TReference ts).

Section Grammar.
Variables (o : oracle) (code : bool).
(** a literal, a name, or a formula in parentheses *)
Inductive primary : list tok -> node -> Prop :=
| g_operand t s n : is_operand t = true -> ast_try_from o (t, s) = inr n -> primary [(t, s)] n
| g_paren b ts n : infixed 1 ts n -> primary (open_paren :: ts ++ [(TCloseParen, b)]) n
(** a name with arguments *)
with applied : list tok -> node -> Prop :=
| g_primary ts n : primary ts n -> applied ts n
| g_call f ts b args id : primary f (NRef id) -> arguments ts args -> applied (f ++ open_paren :: ts ++ [(TCloseParen, b)]) (NCall args id)
(** signs, which stand before numbers only: the outermost counts *)
with signed : list tok -> node -> Prop :=
| g_applied ts n : applied ts n -> signed ts n
| g_plus ts n n' : signed ts n -> apply_sign Positive n = Some n' -> signed ((TOperator, lit "+") :: ts) n'
| g_minus ts n n' : signed ts n -> apply_sign Negative n = Some n' -> signed ((TOperator, lit "-") :: ts) n'
(** percent signs, which stand after numbers only *)
with percented : list tok -> node -> Prop :=
| g_signed ts n : signed ts n -> percented ts n
| g_percent ts n n' : percented ts n -> apply_percent n = Some n' -> percented (ts ++ [(TOperator, lit "%")]) n'
(** operators that bind at least as tightly as tier [k]; those of one tier group to the right *)
with infixed : nat -> list tok -> node -> Prop :=
| g_percented k ts n : percented ts n -> infixed k ts n
| g_infix k p ls op rs l r : binds_tier op p -> k <= p -> infixed (S p) ls l -> infixed p rs r -> infixed k (ls ++ (TOperator, op) :: rs) (NInfix l op r)
(** arguments: any number of commas before, between and after them *)
with arguments : list tok -> list node -> Prop :=
| g_none : arguments [] []
| g_comma s ts args : arguments ts args -> arguments ((TComma, s) :: ts) args
| g_argument es ts n args : infixed 1 es n -> arguments ts args -> after_argument code ts -> arguments (es ++ ts) (n :: args).
(** a whole formula *)
Definition formula : list tok -> node -> Prop := infixed 1.
End Grammar.

(** a parameter list: names and any number of commas *)
Inductive parameters : list tok -> list str -> Prop :=
| pa_none : parameters [] []
| pa_comma s ts ps : parameters ts ps -> parameters ((TComma, s) :: ts) ps
| pa_name s ts ps : parameters ts ps -> parameters ((TReference, s) :: ts) (s :: ps).
(** what a code section says, definition by definition *)
Inductive statement := SUse (name : str) | SVar (name : str) (e : node) | SFn (name : str) (params : list str) (body : node).
(** a definition is followed by another one or by nothing; imports come first *)
Definition after_definition (ts : list tok) : Prop := ts = [] \/ begins TReference ts \/ begins TFunctionDefinition ts.
Inductive section_of (o : oracle) : list tok -> list statement -> Prop :=
| so_end : section_of o [] []
| so_use a t s ts l : section_of o ts l -> section_of o ((TUseModule, a) :: (t, s) :: ts) (SUse s :: l)
| so_use_nothing a : section_of o [(TUseModule, a)] [SUse []]
| so_var x a es ts e l : formula o true es e -> after_definition ts -> section_of o ts l ->
    section_of o ((TReference, x) :: (TVarAssign, a) :: es ++ ts) (SVar x e :: l)
| so_fn a f p b ps es ts params body l : parameters ps params -> formula o true es body -> after_definition ts -> section_of o ts l ->
    section_of o ((TFunctionDefinition, a) :: (TReference, f) :: (TOpenParen, p) :: ps ++ (TCloseParen, b) :: es ++ ts) (SFn f params body :: l).
(** what the statements define, in the order in which they stand, and what they import *)
Definition defines (sc : scope) (s : statement) : scope :=
  match s with
  | SUse _ => sc
  | SVar x e => define_variable sc x (NVar x (VAst e))
  | SFn f ps b => define_function sc f (NFn ps b f)
  end.
Definition imports (s : statement) : list module_path := match s with SUse m => [split_on c_slash m] | _ => [] end.
