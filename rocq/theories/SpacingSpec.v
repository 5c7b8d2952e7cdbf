(** * SpacingSpec: formulas and code sections as words with space between them. *)
From Verif Require Import Base Csvp Ast AstLexer FormulaSpec.

(** what formulas and code sections are made of *)
Inductive word :=
| WName (s : str) | WInt (digits : str) | WDec (digits : str) | WBool (b : bool) | WText (t : str)
| WOp (op : str) | WOpen | WClose | WComma | WAssign | WUse | WFn.
(** the text of a quoted string: quotes in it are doubled *)
Definition quoted_text (t : str) : str := [c_dquote] ++ concat (map (fun c => if (c =? c_dquote)%N then [c; c] else [c]) t) ++ [c_dquote].
Definition word_text (w : word) : str :=
  match w with
  | WName s | WInt s | WDec s | WOp s => s
  | WBool b => if b then lit "true" else lit "false"
  | WText t => quoted_text t
  | WOpen => lit "(" | WClose => lit ")" | WComma => lit "," | WAssign => lit ":="
  | WUse => lit "use" | WFn => lit "fn"
  end.
(** names are those that are read as one word (C15), the operators those of the language *)
Definition word_ok (u : unicode) (w : word) : Prop :=
  match w with
  | WName s => ident u s = true /\ s <> lit "fn" /\ s <> lit ":"
  | WInt s => all_digits s = true
  | WDec s => decimal_text s
  | WOp s => In s [lit "^"; lit "+"; lit "-"; lit "*"; lit "/"; lit "&"; lit "%"; lit "<="; lit ">="; lit "<>"; lit "<"; lit ">"; lit "="]
  | _ => True
  end.
(** space: blanks, line ends and comments, which end with their line *)
Inductive space : str -> Prop :=
| sp_none : space []
| sp_char c g : is_ws c = true -> c <> c_cr -> space g -> space (c :: g)
| sp_comment t g : ~ In c_nl t -> space g -> space (c_hash :: t ++ c_nl :: g).
Definition begins_with (f : char -> bool) (s : str) : bool := match s with c :: _ => f c | [] => false end.
(** the word ends where it ends, whatever follows: without space between them, some words would be read as one *)
Definition ends_before (u : unicode) (w : word) (rest : str) : Prop :=
  match w with
  | WName _ | WInt _ | WDec _ | WBool _ | WUse => begins_with (fun c => ref_char u c || is_digit u c || (c =? c_dot)%N) rest = false
  | WText _ => begins_with (fun c => c =? c_dquote)%N rest = false
  | WOp op => (op = lit "<" -> begins_with (fun c => (c =? 61) || (c =? 62))%N rest = false) /\ (op = lit ">" -> begins_with (fun c => c =? 61)%N rest = false)
  | WFn => begins_with is_ws rest = true
  | _ => True
  end.
(** a comment may also end the text *)
Definition last_comment (e : str) : Prop := e = [] \/ exists t, e = c_hash :: t /\ ~ In c_nl t.
(** the words with space after each *)
Fixpoint layout (l : list (word * str)) (e : str) : str :=
  match l with [] => e | (w, g) :: r => word_text w ++ g ++ layout r e end.
Fixpoint well_spaced (u : unicode) (l : list (word * str)) (e : str) : Prop :=
  match l with [] => last_comment e | (w, g) :: r => word_ok u w /\ space g /\ ends_before u w (g ++ layout r e) /\ well_spaced u r e end.
(** the text is these words, with whatever space between them *)
Definition spells (u : unicode) (ws : list word) (text : str) : Prop :=
  exists g l e, text = g ++ layout l e /\ space g /\ well_spaced u l e /\ ws = map fst l.
