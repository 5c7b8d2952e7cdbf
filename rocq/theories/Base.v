(** * Base: characters, strings and outcomes shared by the whole model.

    Model of Rust's primitive vocabulary as used by csv-plus-plus:
    - [char] is a Unicode scalar value, represented by its code point (N);
    - [String]/[&str] is a list of chars ([str]);  byte lengths are computed by [utf8_len];
    - [Result<T, E>] plus the two ways a Rust call can fail to return (a panic, or never
      returning) is [outcome]. *)

From Coq Require Export String Ascii.
From Coq Require Export List NArith ZArith Bool Arith Lia.
Export ListNotations.
Close Scope string_scope.
Open Scope list_scope.

(** Rust [char] *)
Notation char := N (only parsing).
(** Rust [String] / [&str] as a sequence of chars *)
Notation str := (list N) (only parsing).

(** Only used to write literals in the model, examples and theorem witnesses. *)
Fixpoint lit (s : string) : str :=
  match s with
  | EmptyString => []
  | String a r => N_of_ascii a :: lit r
  end.
Arguments lit s%string.

(** String equality ([==] on str). *)
Fixpoint str_eqb (a b : str) : bool :=
  match a, b with
  | [], [] => true
  | x :: a', y :: b' => N.eqb x y && str_eqb a' b'
  | _, _ => false
  end.

(** Outcome of a Rust call: [Ok], [Err], a panic, or the model's fuel running out (which stands
    for "not known to have returned"; theorems exclude it or exhibit it explicitly). *)
Inductive outcome (E A : Type) : Type :=
| Ok (a : A)
| Err (e : E)
| Panic
| NoFuel.
Arguments Ok {E A} a.
Arguments Err {E A} e.
Arguments Panic {E A}.
Arguments NoFuel {E A}.

(** Rust's [?] operator. *)
Definition bind {E A B} (x : outcome E A) (f : A -> outcome E B) : outcome E B :=
  match x with
  | Ok a => f a
  | Err e => Err e
  | Panic => Panic
  | NoFuel => NoFuel
  end.
Notation "'do' x <- a ; b" := (bind a (fun x => b))
  (at level 200, x pattern, a at level 100, b at level 200).

(** Named characters. *)
Definition c_nl : char := 10%N.        (* \n *)
Definition c_cr : char := 13%N.        (* \r *)
Definition c_tab : char := 9%N.        (* \t *)
Definition c_space : char := 32%N.
Definition c_excl : char := 33%N.      (* ! *)
Definition c_dquote : char := 34%N.    (* double quote *)
Definition c_hash : char := 35%N.      (* # *)
Definition c_dollar : char := 36%N.
Definition c_percent : char := 37%N.
Definition c_amp : char := 38%N.
Definition c_squote : char := 39%N.    (* ' *)
Definition c_lparen : char := 40%N.
Definition c_rparen : char := 41%N.
Definition c_star : char := 42%N.
Definition c_plus : char := 43%N.
Definition c_comma : char := 44%N.
Definition c_minus : char := 45%N.
Definition c_dot : char := 46%N.
Definition c_slash : char := 47%N.
Definition c_colon : char := 58%N.
Definition c_lt : char := 60%N.
Definition c_eq : char := 61%N.
Definition c_gt : char := 62%N.
Definition c_lbracket : char := 91%N.
Definition c_backslash : char := 92%N.
Definition c_rbracket : char := 93%N.
Definition c_backtick : char := 96%N.
Definition c_caret : char := 94%N.
Definition c_underscore : char := 95%N.

(** Unicode property White_Space: [char::is_whitespace], [str::trim] and the regex class \s
    all use it. The list of the 25 code points is from the Unicode Character Database. *)
Definition is_ws (c : char) : bool :=
  ((9 <=? c) && (c <=? 13) || (c =? 32) || (c =? 133) || (c =? 160) || (c =? 5760)
   || ((8192 <=? c) && (c <=? 8202)) || (c =? 8232) || (c =? 8233) || (c =? 8239)
   || (c =? 8287) || (c =? 12288))%N.

(** ASCII classes. *)
Definition is_ascii_digit (c : char) : bool := ((48 <=? c) && (c <=? 57))%N.
Definition is_ascii_upper (c : char) : bool := ((65 <=? c) && (c <=? 90))%N.
Definition is_ascii_lower (c : char) : bool := ((97 <=? c) && (c <=? 122))%N.
Definition is_ascii_alpha (c : char) : bool := is_ascii_upper c || is_ascii_lower c.
Definition is_ascii_alnum (c : char) : bool := is_ascii_alpha c || is_ascii_digit c.
Definition is_ascii_word (c : char) : bool := is_ascii_alnum c || (c =? 95)%N.

(** The Unicode tables that the model leaves abstract, i.e. the behaviour of the library on
    non-ASCII characters that are not white space. On ASCII the concrete classes above are used
    (see [is_word] etc.), so no assumption about a value of this type is ever needed. *)
Record unicode := {
  u_word  : char -> bool;   (* regex \w *)
  u_digit : char -> bool;   (* regex \d *)
  u_alnum : char -> bool;   (* char::is_alphanumeric *)
}.
Definition is_ascii (c : char) : bool := (c <? 128)%N.
Definition is_word (u : unicode) (c : char) : bool :=
  if is_ascii c then is_ascii_word c else negb (is_ws c) && u_word u c.
Definition is_digit (u : unicode) (c : char) : bool :=
  if is_ascii c then is_ascii_digit c else negb (is_ws c) && u_digit u c.
Definition is_alnum (u : unicode) (c : char) : bool :=
  if is_ascii c then is_ascii_alnum c else negb (is_ws c) && u_alnum u c.

(** [str::trim_start], [str::trim_end], [str::trim] *)
Fixpoint trim_start (s : str) : str :=
  match s with
  | [] => []
  | c :: r => if is_ws c then trim_start r else s
  end.
Definition trim_end (s : str) : str := rev (trim_start (rev s)).
Definition trim (s : str) : str := trim_end (trim_start s).

(** Length of the UTF-8 encoding: [char::len_utf8], [str::len]. *)
Definition char_utf8_len (c : char) : nat :=
  if (c <? 128)%N then 1 else if (c <? 2048)%N then 2 else if (c <? 65536)%N then 3 else 4.
Definition utf8_len (s : str) : nat := list_sum (map char_utf8_len s).

(** Cutting a string at a byte index, as [&s[..n]] / [&s[n..]] do: [None] is the panic when [n] is past
    the end or not on a character boundary. *)
Fixpoint byte_split (n : nat) (s : str) {struct s} : option (str * str) :=
  match n, s with
  | 0, _ => Some ([], s)
  | S _, [] => None
  | S _, c :: r =>
      if n <? char_utf8_len c then None
      else match byte_split (n - char_utf8_len c) r with
           | Some (a, b) => Some (c :: a, b)
           | None => None
           end
  end.

(** ASCII case mapping: [to_ascii_lowercase]. *)
Definition ascii_lower_char (c : char) : char := if is_ascii_upper c then (c + 32)%N else c.
Definition ascii_lower (s : str) : str := map ascii_lower_char s.

(** [str::starts_with] and prefix removal *)
Fixpoint strip_prefix (p s : str) : option str :=
  match p, s with
  | [], _ => Some s
  | x :: p', y :: s' => if N.eqb x y then strip_prefix p' s' else None
  | _ :: _, [] => None
  end.
Definition starts_with (p s : str) : bool :=
  match strip_prefix p s with Some _ => true | None => false end.

(** Longest prefix satisfying a predicate, and the rest. *)
Fixpoint span (f : char -> bool) (s : str) : str * str :=
  match s with
  | [] => ([], [])
  | c :: r => if f c then let (a, b) := span f r in (c :: a, b) else ([], s)
  end.

(** [join] of lines with a separator string. *)
Fixpoint join (sep : str) (ls : list str) : str :=
  match ls with
  | [] => []
  | [l] => l
  | l :: rest => l ++ sep ++ join sep rest
  end.

(** Splitting at every occurrence of a character (Rust [split(c)]). *)
Fixpoint split_on (c : char) (s : str) : list str :=
  match s with
  | [] => [[]]
  | x :: r =>
      if N.eqb x c then [] :: split_on c r
      else match split_on c r with
           | [] => [[x]]
           | l :: ls => (x :: l) :: ls
           end
  end.

(** Association lists as maps: the list order is the (arbitrary) iteration order of a Rust
    [HashMap]; keys are kept unique by [assoc_insert]. *)
Fixpoint assoc {A} (k : str) (m : list (str * A)) : option A :=
  match m with
  | [] => None
  | (k', v) :: r => if str_eqb k k' then Some v else assoc k r
  end.
Fixpoint assoc_insert {A} (k : str) (v : A) (m : list (str * A)) : list (str * A) :=
  match m with
  | [] => [(k, v)]
  | (k', v') :: r => if str_eqb k k' then (k, v) :: r else (k', v') :: assoc_insert k v r
  end.
Definition has_key {A} (k : str) (m : list (str * A)) : bool :=
  match assoc k m with Some _ => true | None => false end.
Fixpoint str_in (k : str) (l : list str) : bool :=
  match l with [] => false | x :: r => str_eqb k x || str_in k r end.

(** ** Decimal numerals ([to_string] of unsigned integers, and parsing of ASCII digits) *)
From Coq Require Import Decimal DecimalN.
Fixpoint uint_str (d : Decimal.uint) : str :=
  match d with
  | Nil => []
  | D0 r => 48%N :: uint_str r | D1 r => 49%N :: uint_str r | D2 r => 50%N :: uint_str r
  | D3 r => 51%N :: uint_str r | D4 r => 52%N :: uint_str r | D5 r => 53%N :: uint_str r
  | D6 r => 54%N :: uint_str r | D7 r => 55%N :: uint_str r | D8 r => 56%N :: uint_str r
  | D9 r => 57%N :: uint_str r
  end.
Definition dec (n : N) : str := uint_str (N.to_uint n).
(** value of a string of ASCII digits, most significant first *)
Definition digits_value (s : str) : N :=
  fold_left (fun acc c => acc * 10 + (c - 48))%N s 0%N.
Definition all_digits (s : str) : bool :=
  match s with [] => false | _ => forallb is_ascii_digit s end.
