(** * PanicSpec: where the reading of a formula or code section gets stuck. *)
From Verif Require Import Base Csvp Ast AstLexer.

(** No word of the language begins here: the character is no punctuation, digit or part of a name, and if it is a quote it is not closed. *)
Definition no_word (u : unicode) (s : str) : Prop :=
  match s with
  | [] => True
  | c :: r => ~ In c (c_nl :: lit "#,()^+-*/&%<>=") /\ is_digit u c = false /\ ref_char u c = false /\ (c = c_dquote -> ~ In c_dquote r)
  end.
(** [stuck u s rest]: reading word after word from [s] arrives at [rest], where, after blanks, no word begins although something is left *)
Inductive stuck (u : unicode) : str -> str -> Prop :=
| stuck_here blanks s : forallb is_blank blanks = true -> no_word u s -> (match s with [] => True | c :: _ => is_blank c = false end) ->
    forallb is_ws s = false -> stuck u (blanks ++ s) (blanks ++ s)
| stuck_later blanks s t word next rest : forallb is_blank blanks = true -> (match s with [] => True | c :: _ => is_blank c = false end) ->
    first_match (matchers_ordered u) s = Some (t, word, next) -> stuck u next rest -> stuck u (blanks ++ s) rest.
(** the text cannot be shortened to 50 bytes: it is longer, and a character lies across the 50th *)
Definition uncuttable (s : str) : Prop := 50 < utf8_len s /\ ~ exists a b, s = a ++ b /\ utf8_len a = 50.
(** the text without the equals sign at the front *)
Definition after_equals (s : str) : str := match s with c :: r => if (c =? c_eq)%N then r else s | [] => s end.
Definition panics_on (u : unicode) (s : str) : Prop := exists rest, stuck u (after_equals s) rest /\ uncuttable rest.
