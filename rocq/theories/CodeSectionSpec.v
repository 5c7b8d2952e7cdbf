(** * CodeSectionSpec: the shape of token streams and of code sections, independently of the
    lexer's and parser's algorithms. *)
From Verif Require Import Base Csvp Ast AstLexer AstParser FormulaSpec.

(** ** Slices of the source
    [slices pos s l]: the text [s], whose first character has index [pos], is made of the pieces
    [l] (index, text) in this order, with only white space and comments (a # up to the end of its
    line) around them. *)
Inductive slices : nat -> str -> list (nat * str) -> Prop :=
| sl_end pos : slices pos [] []
| sl_ws pos c s l : is_ws c = true -> slices (S pos) s l -> slices pos (c :: s) l
| sl_comment pos t s l :
    forallb (fun c => negb (c =? c_nl)%N) t = true -> (s = [] \/ exists r, s = c_nl :: r) ->
    slices (pos + S (length t)) s l -> slices pos (c_hash :: t ++ s) l
| sl_piece pos a s l :
    a <> [] -> slices (pos + length a) s l -> slices pos (a ++ s) ((pos, a) :: l).

(** One line of ASCII text. *)
Definition ascii_line (s : str) : bool :=
  forallb (fun c => is_ascii c && negb (c =? c_nl)%N) s.

(** ** Code sections *)
Inductive item :=
| IUse (name : str)
| IVar (name : str) (e : node)
| IFn (name : str) (params : list str) (body : node).
(** how the documentation writes them, one per line *)
Definition item_text (i : item) : str :=
  match i with
  | IUse m => lit "use " ++ m
  | IVar n e => n ++ lit " := " ++ show e
  | IFn n ps b => lit "fn " ++ n ++ lit "(" ++ join (lit ", ") ps ++ lit ") " ++ show b
  end.
Fixpoint section_text (l : list item) : str :=
  match l with
  | [] => []
  | i :: r => item_text i ++ [c_nl] ++ section_text r
  end.
(** what they define *)
Definition item_scope (sc : scope) (i : item) : scope :=
  match i with
  | IUse _ => sc
  | IVar n e => define_variable sc n (NVar n (VAst (canonical e)))
  | IFn n ps b => define_function sc n (NFn ps (canonical b) n)
  end.
Definition item_modules (i : item) : list module_path :=
  match i with IUse m => [[m]] | _ => [] end.
Definition is_use (i : item) : bool := match i with IUse _ => true | _ => false end.
(** imports first *)
Fixpoint uses_first (l : list item) : Prop :=
  match l with
  | [] => True
  | i :: r => if is_use i then uses_first r else forallb (fun j => negb (is_use j)) r = true
  end.
(** a name that lexes as one reference *)
Definition name_ok (u : unicode) (n : str) : Prop := ident u n = true /\ n <> lit "fn".
Definition item_ok (o : oracle) (i : item) : Prop :=
  match i with
  | IUse m => name_ok (o_unicode o) m
  | IVar n e => name_ok (o_unicode o) n /\ printable o e
  | IFn n ps b => name_ok (o_unicode o) n /\ Forall (name_ok (o_unicode o)) ps /\ printable o b
  end.
