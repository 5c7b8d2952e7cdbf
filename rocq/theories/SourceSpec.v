(** * SourceSpec: vocabulary for the properties of source splitting and error excerpts. *)
From Verif Require Import Base SourceCode.

(** Texts without carriage returns / without newlines. *)
Definition no_cr (s : str) : bool := forallb (fun c => negb (c =? c_cr)%N) s.
Definition one_line (s : str) : bool := forallb (fun c => negb (c =? c_nl)%N) s.
(** Text of a list of lines each ended by a newline. *)
Definition unlines (ls : list str) : str := concat (map (fun l => l ++ [c_nl]) ls).

(** A source line as it is shown in an error excerpt: its 1-based number padded to [w] columns. *)
Definition numbered (w j : nat) (l : str) : str :=
  [c_space] ++ pad_right w (dec (N.of_nat (S j))) ++ [c_colon; c_space] ++ l.
(** the lines numbered a .. a+n-1 *)
Definition excerpt (w : nat) (lines : list str) (a n : nat) : list str :=
  map (fun j => numbered w j (nth j lines [])) (seq a n).
