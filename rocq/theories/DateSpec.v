(** * DateSpec: what a written date says (from book/src/language_reference and the ISO and US conventions, not from /repo's code). *)
From Verif Require Import Base CellSpec TargetSpec.

Definition number (t : str) : Z := Z.of_N (digits_value t).
(** two digits mean a year from 1970 to 2069 *)
Definition full_year (y : str) : Z :=
  if length y =? 2 then (if (number y <? 70)%Z then 2000 + number y else 1900 + number y)%Z else number y.
(** year-month-day, or month/day/year *)
Inductive date_says : str -> Z * Z * Z -> Prop :=
| ds_iso y m d : digits 4 4 y -> digits 2 2 m -> digits 2 2 d ->
    date_says (y ++ [c_minus] ++ m ++ [c_minus] ++ d) (number y, number m, number d)
| ds_us m d y : digits 1 2 m -> digits 1 2 d -> digits 2 4 y ->
    date_says (m ++ [c_slash] ++ d ++ [c_slash] ++ y) (full_year y, number m, number d).
(** hours and minutes, perhaps with seconds *)
Inductive time_says : str -> Z * Z * Z -> Prop :=
| ts_minutes h mi : digits 1 2 h -> digits 1 2 mi -> time_says (h ++ [c_colon] ++ mi) (number h, number mi, 0%Z)
| ts_seconds h mi s : digits 1 2 h -> digits 1 2 mi -> digits 1 2 s ->
    time_says (h ++ [c_colon] ++ mi ++ [c_colon] ++ s) (number h, number mi, number s).
(** 60 is a leap second *)
Definition clock (h mi s : Z) : Prop := (0 <= h <= 23 /\ 0 <= mi <= 59 /\ 0 <= s <= 60)%Z.
(** the year is not written with two digits only *)
Definition no_short_year (t : str) : Prop := forall a y, length y = 2 -> t <> a ++ [c_slash] ++ y.
