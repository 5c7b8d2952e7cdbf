(** * SheetSpec: what expanding and reading a spreadsheet mean. *)
From Verif Require Import Base Csvp Ast Options Sheet.

(** ** Fills *)
(** how many rows a row stands for, when an unbounded fill stands for [left] rows *)
Definition copies (left : nat) (r : row) : nat :=
  match row_fill r with
  | None => 1
  | Some f => match fill_amount f with Some n => n | None => left end
  end.
Definition total (left : nat) (rs : list row) : nat := list_sum (map (copies left) rs).
Definition unbounded (r : row) : Prop := exists f, row_fill r = Some f /\ fill_amount f = None.
(** the rows in front of the [i]-th row of the source stand for this many rows *)
Definition offset (left : nat) (rs : list row) (i : nat) : nat := total left (firstn i rs).
(** what is left of 1000 rows *)
Definition room (rs : list row) : nat := 1000 - total 0 rs.
(** a copy of a row: the same row, except that its fill starts where the first copy is *)
Definition is_copy (start : nat) (r c : row) : Prop :=
  row_cells c = row_cells r /\ row_options c = row_options r /\ row_var c = row_var r
  /\ row_fill c = option_map (fun f => {| fill_amount := fill_amount f; start_row := start |}) (row_fill r).

(** ** A1 notation *)
(** a column's letters: A is 1, Z is 26, AA is 27 *)
Definition letters_value (s : str) : N := fold_left (fun acc c => (acc * 26 + (c - 64))%N) s 0%N.
Definition letters (s : str) : Prop := s <> [] /\ forallb (fun c => (65 <=? c) && (c <=? 90))%N s = true.
(** [names_cell t x y]: the text names the cell in column x and row y (both from 0) *)
Definition names_cell (t : str) (x y : nat) : Prop :=
  exists a b, t = a ++ b /\ letters a /\ letters_value a = N.of_nat (S x) /\ all_digits b = true /\ digits_value b = N.of_nat (S y).
Definition names_column_part (t : str) (x y1 y2 : nat) : Prop :=
  exists a b, t = a ++ [c_colon] ++ b /\ names_cell a x y1 /\ names_cell b x y2.
Definition names_rows (t : str) (y1 y2 : nat) : Prop :=
  exists a b, t = a ++ [c_colon] ++ b /\ all_digits a = true /\ digits_value a = N.of_nat (S y1)
    /\ all_digits b = true /\ digits_value b = N.of_nat (S y2).

(** ** Variables bound in the sheet *)
(** what is bound where: the row itself or one of its cells *)
Inductive target := TRow (y : nat) | TCell (x y : nat).
Definition binds (s : spreadsheet) (name : str) (t : target) (f : option fill) : Prop :=
  match t with
  | TRow y => exists r, nth_error (sheet_rows s) y = Some r /\ row_var r = Some name /\ f = row_fill r
  | TCell x y => exists r c, nth_error (sheet_rows s) y = Some r /\ nth_error (row_cells r) x = Some c
                 /\ cell_var c = Some name /\ f = row_fill r
  end.
(** reading order: rows from the top; a row before its cells; cells from the left *)
Definition before (a b : target) : Prop :=
  match a, b with
  | TRow y, TRow y' | TCell _ y, TRow y' => y < y'
  | TRow y, TCell _ y' => y <= y'
  | TCell x y, TCell x' y' => y < y' \/ y = y' /\ x < x'
  end.
(** the last one wins *)
Definition last_binding (s : spreadsheet) (name : str) (t : target) (f : option fill) : Prop :=
  binds s name t f /\ forall t' f', binds s name t' f' -> t' = t \/ before t' t.
