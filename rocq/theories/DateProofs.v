(** * DateProofs *)
From Coq Require Import ZifyBool ZifyN ZifyNat.
From Verif Require Import Base BaseProofs AstProofs Targets TargetSpec CellSpec CellProofs3 DateTime DateSpec.

Definition isnum (i : item) : bool := match i with IYearMod100 | IMonth | IDay | IHour | IMinute | ISecond => true | _ => false end.
Definition obind {A B} (x : option A) (f : A -> option B) : option B := match x with Some a => f a | None => None end.

Lemma take_digits_app k : forall a r, length a <= k -> forallb is_ascii_digit a = true -> (length a = k \/ not_digit_head r) -> take_digits k (a ++ r) = (a, r).
Proof.
  induction k as [|k IH]; intros [|c a] r L D E.
  - reflexivity.
  - cbn in L; lia.
  - destruct E as [E|E]; [discriminate|]. cbn. destruct r as [|c r]; [reflexivity|]. cbn in E. rewrite E. reflexivity.
  - cbn [forallb] in D. apply andb_prop in D as [D1 D2]. cbn [take_digits app]. rewrite D1. rewrite IH; [reflexivity| | |]; cbn in *; auto; try lia.
    destruct E as [E|E]; [left; lia|right; exact E].
Qed.
Lemma span_digits_app a r : forallb is_ascii_digit a = true -> not_digit_head r -> span is_ascii_digit (a ++ r) = (a, r).
Proof.
  intros D E. induction a as [|c a IH].
  - cbn. destruct r as [|c r]; [reflexivity|]. cbn in E |- *. rewrite E. reflexivity.
  - cbn [forallb] in D. apply andb_prop in D as [D1 D2]. cbn. rewrite D1, (IH D2). reflexivity.
Qed.
Lemma scan_digits k a r : a <> [] -> length a <= k -> forallb is_ascii_digit a = true -> (length a = k \/ not_digit_head r) -> scan_number (Some k) (a ++ r) = Some (number a, r).
Proof. intros N L D E. unfold scan_number. rewrite (take_digits_app k a r L D E). destruct a; [congruence|reflexivity]. Qed.
Lemma scan_all a r : a <> [] -> forallb is_ascii_digit a = true -> not_digit_head r -> scan_number None (a ++ r) = Some (number a, r).
Proof. intros N D E. unfold scan_number. rewrite (span_digits_app a r D E). destruct a; [congruence|reflexivity]. Qed.
Lemma trim_digits a r : a <> [] -> forallb is_ascii_digit a = true -> trim_start (a ++ r) = a ++ r.
Proof.
  destruct a as [|c a]; [congruence|]. intros _ D. cbn [forallb] in D. apply andb_prop in D as [D _]. cbn [app trim_start].
  replace (is_ws c) with false; [reflexivity|]. unfold is_ws, is_ascii_digit in *. lia.
Qed.
Lemma digits_nonempty lo hi a : digits (S lo) hi a -> a <> [].
Proof. intros ((L & _) & _) ->. cbn in L. lia. Qed.
Lemma num_step i a r p is : isnum i = true -> digits 1 2 a -> (length a = 2 \/ not_digit_head r) ->
  parse_items (i :: is) (a ++ r) p = obind (set_item i (number a) p) (parse_items is r).
Proof.
  intros I D E. pose proof (digits_nonempty _ _ _ D) as N. destruct D as (L & D).
  assert (X : parse_item i (a ++ r) p = option_map (fun p => (r, p)) (set_item i (number a) p)).
  { destruct i; try discriminate; cbn [parse_item]; rewrite (trim_digits a r N D), (scan_digits 2 a r N (proj2 L) D E); reflexivity. }
  cbn [parse_items]. rewrite X. destruct (set_item i (number a) p); reflexivity.
Qed.
Lemma digit_neq c : is_ascii_digit c = true -> ((c =? c_minus) = false /\ (c =? c_plus) = false /\ (c =? c_slash) = false /\ (c =? c_colon) = false)%N.
Proof. unfold is_ascii_digit, c_minus, c_plus, c_slash, c_colon. lia. Qed.
Lemma year_step a r p is : digits 1 4 a -> (length a = 4 \/ not_digit_head r) ->
  parse_items (IYear :: is) (a ++ r) p = obind (set_item IYear (number a) p) (parse_items is r).
Proof.
  intros D E. pose proof (digits_nonempty _ _ _ D) as N. destruct D as (L & D). cbn [parse_items parse_item]. rewrite (trim_digits a r N D).
  destruct a as [|c a]; [congruence|]. pose proof D as D'. cbn [forallb] in D'. apply andb_prop in D' as [Dc _]. cbn [app]. apply digit_neq in Dc as (-> & -> & _ & _).
  change (c :: a ++ r) with ((c :: a) ++ r). rewrite (scan_digits 4 (c :: a) r N (proj2 L) D E). destruct (set_item IYear (number (c :: a)) p); reflexivity.
Qed.
Lemma sign_step (neg : bool) a r p is : a <> [] -> forallb is_ascii_digit a = true -> not_digit_head r ->
  parse_items (IYear :: is) ((if neg then c_minus else c_plus) :: a ++ r) p = obind (set_item IYear (if neg then - number a else number a)%Z p) (parse_items is r).
Proof.
  intros N D E. cbn [parse_items parse_item].
  replace (trim_start ((if neg then c_minus else c_plus) :: a ++ r)) with ((if neg then c_minus else c_plus) :: a ++ r) by (destruct neg; reflexivity).
  destruct neg; cbn [c_minus c_plus N.eqb Pos.eqb]; rewrite (scan_all a r N D E); cbn [option_map]; [destruct (set_item IYear (- number a)%Z p)|destruct (set_item IYear (number a) p)]; reflexivity.
Qed.
Lemma lit_step c r p is : parse_items (ILiteral c :: is) (c :: r) p = parse_items is r p.
Proof. cbn [parse_items parse_item]. rewrite N.eqb_refl. reflexivity. Qed.
Lemma lit_fail c x r p is : (x =? c)%N = false -> parse_items (ILiteral c :: is) (x :: r) p = None.
Proof. intro H. cbn [parse_items parse_item]. rewrite H. reflexivity. Qed.
Lemma lit_end c p is : parse_items (ILiteral c :: is) [] p = None.
Proof. reflexivity. Qed.
Lemma num_end i p is : isnum i = true -> parse_items (i :: is) [] p = None.
Proof. destruct i; try discriminate; reflexivity. Qed.
Lemma obind_none {A B} (x : option A) : @obind A B x (fun _ => None) = None.
Proof. destruct x; reflexivity. Qed.
Lemma obind_ext {A B} (x : option A) (f g : A -> option B) : (forall a, f a = g a) -> obind x f = obind x g.
Proof. destruct x; cbn; auto. Qed.

(** ** The lengths of months *)
Lemma month_days_spec y m : (1 <= m <= 12)%Z -> month_days y m = days_in_month y m.
Proof.
  intro M. assert (K : ((y mod 4 =? 0) && (negb (y mod 25 =? 0) || (y mod 16 =? 0)))%Z%bool = leap y).
  { unfold leap. destruct (Z.eqb_spec (y mod 4) 0), (Z.eqb_spec (y mod 25) 0), (Z.eqb_spec (y mod 16) 0), (Z.eqb_spec (y mod 100) 0), (Z.eqb_spec (y mod 400) 0); cbn; try reflexivity; exfalso; Z.div_mod_to_equations; lia. }
  unfold month_days, days_in_month. rewrite K.
  assert (C : (m = 1 \/ m = 2 \/ m = 3 \/ m = 4 \/ m = 5 \/ m = 6 \/ m = 7 \/ m = 8 \/ m = 9 \/ m = 10 \/ m = 11 \/ m = 12)%Z) by lia.
  destruct C as [->|[->|[->|[->|[->|[->|[->|[->|[->|[->|[->| ->]]]]]]]]]]]; reflexivity.
Qed.
Lemma in_range_spec lo v hi : in_range lo v hi = true <-> (lo <= v <= hi)%Z.
Proof. unfold in_range. lia. Qed.
Lemma ymd_ok_spec y m d : ymd_ok y m d = true <-> (-262143 <= y <= 262142)%Z /\ valid_date y m d.
Proof.
  unfold ymd_ok. rewrite !andb_true_iff, !in_range_spec. unfold valid_date. split.
  - intros ((Y & M) & D). rewrite (month_days_spec y m M) in D. auto.
  - intros (Y & M & D). rewrite (month_days_spec y m M). auto.
Qed.
Lemma valid_day y m d : valid_date y m d -> (1 <= d <= 31)%Z.
Proof. intros (M & D). unfold days_in_month in D. destruct (m =? 2)%Z; [destruct (leap y); lia|]. destruct (_ || _)%bool; lia. Qed.
Lemma number_bound a : (0 <= number a)%Z.
Proof. unfold number. lia. Qed.
Lemma digits_value_bound a : forallb is_ascii_digit a = true -> forall acc, (fold_left (fun acc c => acc * 10 + (c - 48)) a acc < (acc + 1) * 10 ^ N.of_nat (length a))%N.
Proof.
  induction a as [|c a IH]; intros D acc; cbn [fold_left length].
  - cbn. lia.
  - cbn [forallb] in D. apply andb_prop in D as [D1 D2]. specialize (IH D2 (acc * 10 + (c - 48))%N). rewrite Nat2N.inj_succ, N.pow_succ_r'.
    unfold is_ascii_digit in D1. eapply N.lt_le_trans; [exact IH|]. rewrite N.mul_assoc. apply N.mul_le_mono_r. lia.
Qed.
Lemma number_lt a k : forallb is_ascii_digit a = true -> length a <= k -> (number a < 10 ^ Z.of_nat k)%Z.
Proof.
  intros D L. pose proof (digits_value_bound a D 0%N) as B. unfold number, digits_value.
  assert (10 ^ N.of_nat (length a) <= 10 ^ N.of_nat k)%N by (apply N.pow_le_mono_r; lia).
  rewrite N.add_0_l, N.mul_1_l in B. assert (Z.of_N (10 ^ N.of_nat k) = 10 ^ Z.of_nat k)%Z by (rewrite N2Z.inj_pow; f_equal; lia). lia.
Qed.

(** ** Running the formats *)
Definition iso (y m d rest : str) : str := y ++ c_minus :: m ++ c_minus :: d ++ rest.
Definition us (m d y rest : str) : str := m ++ c_slash :: d ++ c_slash :: y ++ rest.
Definition pd (y ym : option Z) (m d : Z) : parsed :=
  {| p_year := y; p_year_mod_100 := ym; p_month := Some m; p_day := Some d; p_hour := None; p_minute := None; p_second := None |}.
(** what reading a date part leaves, when the ranges of the fields allow it *)
Definition dated (y m d : Z) : option parsed :=
  if in_range (-2147483648) y 2147483647 && in_range 1 m 12 && in_range 1 d 31 then Some (pd (Some y) None m d) else None.
Definition dated2 (y m d : Z) : option parsed :=
  if in_range 0 y 99 && in_range 1 m 12 && in_range 1 d 31 then Some (pd None (Some y) m d) else None.

Ltac items f := unfold chrono_parse; let v := eval vm_compute in (strftime (lit f)) in change (strftime (lit f)) with v.
Lemma iso_items y m d rest is : digits 4 4 y -> digits 2 2 m -> digits 2 2 d ->
  parse_items (IYear :: ILiteral 45%N :: IMonth :: ILiteral 45%N :: IDay :: is) (iso y m d rest) parsed_new
  = obind (dated (number y) (number m) (number d)) (parse_items is rest).
Proof.
  intros Y M D. unfold iso. destruct Y as (Ly & Y), M as (Lm & M), D as (Ld & D).
  rewrite year_step; [|split; [lia|exact Y]|left; lia]. unfold dated. cbn [set_item].
  destruct (in_range (-2147483648) (number y) 2147483647); cbn [obind andb]; [|reflexivity].
  rewrite lit_step. rewrite num_step; [|reflexivity|split; [lia|exact M]|left; lia]. cbn [set_item].
  destruct (in_range 1 (number m) 12); cbn [obind andb]; [|reflexivity].
  rewrite lit_step. rewrite num_step; [|reflexivity|split; [lia|exact D]|left; lia]. cbn [set_item].
  destruct (in_range 1 (number d) 31); reflexivity.
Qed.
(** the same with a signed year *)
Lemma signed_items (neg : bool) y m d rest is : y <> [] -> forallb is_ascii_digit y = true -> digits 2 2 m -> digits 2 2 d ->
  parse_items (IYear :: ILiteral 45%N :: IMonth :: ILiteral 45%N :: IDay :: is) ((if neg then c_minus else c_plus) :: iso y m d rest) parsed_new
  = obind (dated (if neg then - number y else number y)%Z (number m) (number d)) (parse_items is rest).
Proof.
  intros N Y M D. unfold iso. destruct M as (Lm & M), D as (Ld & D).
  rewrite sign_step; [|exact N|exact Y|reflexivity]. unfold dated. cbn [set_item].
  destruct (in_range (-2147483648) (if neg then - number y else number y)%Z 2147483647); cbn [obind andb]; [|reflexivity].
  rewrite lit_step. rewrite num_step; [|reflexivity|split; [lia|exact M]|left; lia]. cbn [set_item].
  destruct (in_range 1 (number m) 12); cbn [obind andb]; [|reflexivity].
  rewrite lit_step. rewrite num_step; [|reflexivity|split; [lia|exact D]|left; lia]. cbn [set_item].
  destruct (in_range 1 (number d) 31); reflexivity.
Qed.
Lemma us_items y m d rest is : digits 1 4 y -> digits 1 2 m -> digits 1 2 d -> not_digit_head rest ->
  parse_items (IMonth :: ILiteral 47%N :: IDay :: ILiteral 47%N :: IYear :: is) (us m d y rest) parsed_new
  = obind (dated (number y) (number m) (number d)) (parse_items is rest).
Proof.
  intros Y M D E. unfold us.
  rewrite num_step; [|reflexivity|exact M|right; reflexivity]. cbn [set_item]. unfold dated. rewrite <- andb_assoc, andb_comm, <- andb_assoc.
  destruct (in_range 1 (number m) 12); cbn [obind andb]; [|reflexivity].
  rewrite lit_step. rewrite num_step; [|reflexivity|exact D|right; reflexivity]. cbn [set_item].
  destruct (in_range 1 (number d) 31); cbn [obind andb]; [|reflexivity].
  rewrite lit_step. rewrite year_step; [|exact Y|right; exact E]. cbn [set_item].
  destruct (in_range (-2147483648) (number y) 2147483647); reflexivity.
Qed.
(** with %y only the first two digits of the year are read *)
Lemma us_items2 y1 y2 y m d is : digits 2 2 [y1; y2] -> digits 1 2 m -> digits 1 2 d ->
  parse_items (IMonth :: ILiteral 47%N :: IDay :: ILiteral 47%N :: IYearMod100 :: is) (us m d (y1 :: y2 :: y) []) parsed_new
  = obind (dated2 (number [y1; y2]) (number m) (number d)) (parse_items is y).
Proof.
  intros (Ly & Y) M D. unfold us. rewrite app_nil_r.
  rewrite num_step; [|reflexivity|exact M|right; reflexivity]. cbn [set_item]. unfold dated2. rewrite <- andb_assoc, andb_comm, <- andb_assoc.
  destruct (in_range 1 (number m) 12); cbn [obind andb]; [|reflexivity].
  rewrite lit_step. rewrite num_step; [|reflexivity|exact D|right; reflexivity]. cbn [set_item].
  destruct (in_range 1 (number d) 31); cbn [obind andb]; [|reflexivity].
  rewrite lit_step. change (y1 :: y2 :: y) with ([y1; y2] ++ y). rewrite num_step; [|reflexivity|split; [cbn; lia|exact Y]|left; reflexivity]. cbn [set_item].
  destruct (in_range 0 (number [y1; y2]) 99); reflexivity.
Qed.

(** a number of two digits followed by the wrong character *)
Lemma num_lit_fail i c is a x r p : isnum i = true -> digits 1 2 a -> (length a = 2 \/ is_ascii_digit x = false) -> (x =? c)%N = false ->
  parse_items (i :: ILiteral c :: is) (a ++ x :: r) p = None.
Proof.
  intros I D E X. rewrite num_step; [|exact I|exact D|exact E]. destruct (set_item i (number a) p); [|reflexivity]. cbn [obind]. apply lit_fail. exact X.
Qed.
Lemma iso_num_fail i c is y m d rest p : isnum i = true -> digits 4 4 y -> (c =? c_slash)%N || (c =? c_colon)%N || (c =? c_minus)%N = true ->
  parse_items (i :: ILiteral c :: is) (iso y m d rest) p = None.
Proof.
  intros I ((L & L') & D) C. destruct y as [|a [|b [|e [|f [|]]]]]; cbn in L, L'; try lia. cbn [forallb] in D. rewrite !andb_true_iff in D. destruct D as (Da & Db & De & Df & _).
  unfold iso. change ([a; b; e; f] ++ c_minus :: m ++ c_minus :: d ++ rest) with ([a; b] ++ e :: f :: c_minus :: m ++ c_minus :: d ++ rest).
  apply num_lit_fail; [exact I|split; [cbn; lia|cbn; rewrite Da, Db; reflexivity]|left; reflexivity|].
  apply digit_neq in De as (N1 & N2 & N3 & N4). unfold c_slash, c_colon, c_minus in *.  lia.
Qed.
(** the year item in front of a minus sign cannot read a month *)
Lemma us_year_fail is m r p : digits 1 2 m -> parse_items (IYear :: ILiteral 45%N :: is) (m ++ c_slash :: r) p = None.
Proof.
  intros M. rewrite year_step; [|destruct M as (L & M); split; [lia|exact M]|right; reflexivity]. destruct (set_item _ _ _); [|reflexivity]. cbn [obind]. apply lit_fail. reflexivity.
Qed.
Lemma us_num_fail i c is m r p : isnum i = true -> digits 1 2 m -> (c_slash =? c)%N = false -> parse_items (i :: ILiteral c :: is) (m ++ c_slash :: r) p = None.
Proof. intros I M C. apply num_lit_fail; [exact I|exact M|right; reflexivity|exact C]. Qed.

Lemma to_date_dated y m d : (-2147483648 <= y <= 2147483647)%Z ->
  match dated y m d with Some p => read_date p | None => None end = if ymd_ok y m d then Some (DTDate y m d) else None.
Proof.
  intro Y. unfold dated. replace (in_range (-2147483648) y 2147483647) with true by (symmetry; apply in_range_spec; lia). cbn [andb].
  destruct (in_range 1 m 12 && in_range 1 d 31) eqn:K.
  - unfold read_date, to_naive_date, pd. cbn [p_year p_year_mod_100 p_month p_day]. destruct (ymd_ok y m d); reflexivity.
  - destruct (ymd_ok y m d) eqn:O; [|reflexivity]. apply ymd_ok_spec in O as (_ & V). pose proof (valid_day _ _ _ V). destruct V as (M & _).
    apply andb_false_iff in K as [K|K]; unfold in_range in K; lia.
Qed.
Lemma to_date_dated2 y m d : (0 <= y <= 99)%Z ->
  match dated2 y m d with Some p => read_date p | None => None end
  = let y := (if (y <? 70)%Z then 2000 + y else 1900 + y)%Z in if ymd_ok y m d then Some (DTDate y m d) else None.
Proof.
  intro Y. cbv zeta. set (y' := (if (y <? 70)%Z then 2000 + y else 1900 + y)%Z). unfold dated2. replace (in_range 0 y 99) with true by (symmetry; apply in_range_spec; lia). cbn [andb].
  assert (Ey : (if (y <? 70)%Z then y + 2000 else y + 1900)%Z = y') by (unfold y'; destruct (y <? 70)%Z; lia).
  destruct (in_range 1 m 12 && in_range 1 d 31) eqn:K.
  - unfold read_date, to_naive_date, pd. cbn [p_year p_year_mod_100 p_month p_day]. rewrite Ey. destruct (ymd_ok y' m d); reflexivity.
  - destruct (ymd_ok y' m d) eqn:O; [|reflexivity]. apply ymd_ok_spec in O as (_ & V). pose proof (valid_day _ _ _ V). destruct V as (M & _).
    apply andb_false_iff in K as [K|K]; unfold in_range in K; lia.
Qed.

Lemma chrono_none f s : parse_items (strftime (lit f)) s parsed_new = None -> chrono_parse f s = None.
Proof. intro H. unfold chrono_parse. rewrite H. reflexivity. Qed.
Ltac fails := apply chrono_none; match goal with |- parse_items (strftime (lit ?f)) _ _ = _ => let v := eval vm_compute in (strftime (lit f)) in change (strftime (lit f)) with v end.

Theorem read_iso y m d : digits 4 4 y -> digits 2 2 m -> digits 2 2 d ->
  date_time_of (iso y m d []) = if ymd_ok (number y) (number m) (number d) then Some (DTDate (number y) (number m) (number d)) else None.
Proof.
  intros Y M D. set (s := iso y m d []).
  assert (F1 : chrono_parse "%Y-%m-%d %H:%M:%S" s = None).
  { fails. unfold s. rewrite iso_items by assumption. destruct (dated _ _ _); reflexivity. }
  assert (F2 : chrono_parse "%m/%d/%Y %H:%M:%S" s = None) by (fails; apply iso_num_fail; auto).
  assert (F3 : chrono_parse "%Y-%m-%d %H:%M" s = None).
  { fails. unfold s. rewrite iso_items by assumption. destruct (dated _ _ _); reflexivity. }
  assert (F4 : chrono_parse "%m/%d/%Y %H:%M" s = None) by (fails; apply iso_num_fail; auto).
  assert (F5 : chrono_parse "%y-%m-%d" s = None) by (fails; apply iso_num_fail; auto).
  assert (F6 : chrono_parse "%m/%d/%y" s = None) by (fails; apply iso_num_fail; auto).
  assert (F8 : chrono_parse "%m/%d/%Y" s = None) by (fails; apply iso_num_fail; auto).
  assert (F9 : chrono_parse "%H:%M:%S.%Z" s = None) by (fails; apply iso_num_fail; auto).
  assert (F10 : chrono_parse "%H:%M:%S" s = None) by (fails; apply iso_num_fail; auto).
  assert (F11 : chrono_parse "%H:%M" s = None) by (fails; apply iso_num_fail; auto).
  assert (F7 : chrono_parse "%Y-%m-%d" s = dated (number y) (number m) (number d)).
  { items "%Y-%m-%d"%string. unfold s. change [IYear; ILiteral 45; IMonth; ILiteral 45; IDay] with (IYear :: ILiteral 45 :: IMonth :: ILiteral 45 :: IDay :: []). rewrite iso_items by assumption. destruct (dated _ _ _); reflexivity. }
  unfold date_time_of, DATE_TIME, DATE, TIME. cbn [try_formats]. rewrite F1, F2, F3, F4, F5, F6, F7, F8, F9, F10, F11.
  assert (B : (0 <= number y < 10000)%Z) by (destruct Y as (L & Y); split; [apply number_bound|exact (number_lt y 4 Y (proj2 L))]).
  pose proof (to_date_dated (number y) (number m) (number d) ltac:(lia)) as T. rewrite T. destruct (ymd_ok _ _ _); reflexivity.
Qed.
(** leap years are the same with the century left out *)
Lemma century_leap r : (0 <= r <= 99)%Z -> leap (if (r <? 70)%Z then 2000 + r else 1900 + r)%Z = leap r.
Proof.
  intro R. unfold leap. destruct (Z.ltb_spec r 70).
  - replace ((2000 + r) mod 4)%Z with (r mod 4)%Z by (Z.div_mod_to_equations; lia). replace ((2000 + r) mod 100)%Z with (r mod 100)%Z by (Z.div_mod_to_equations; lia).
    replace ((2000 + r) mod 400)%Z with (r mod 400)%Z by (Z.div_mod_to_equations; lia). reflexivity.
  - replace ((1900 + r) mod 4)%Z with (r mod 4)%Z by (Z.div_mod_to_equations; lia). replace ((1900 + r) mod 100 =? 0)%Z with false by (Z.div_mod_to_equations; lia).
    replace (r mod 100 =? 0)%Z with false by (Z.div_mod_to_equations; lia). cbn. reflexivity.
Qed.
Theorem read_us m d y : digits 1 2 m -> digits 1 2 d -> digits 2 4 y ->
  date_time_of (us m d y []) = if ymd_ok (full_year y) (number m) (number d) then Some (DTDate (full_year y) (number m) (number d)) else None.
Proof.
  intros M D Y. set (s := us m d y []). assert (Y1 : digits 1 4 y) by (destruct Y as (L & Y); split; [lia|exact Y]).
  assert (F1 : chrono_parse "%Y-%m-%d %H:%M:%S" s = None) by (fails; apply us_year_fail; auto).
  assert (F2 : chrono_parse "%m/%d/%Y %H:%M:%S" s = None).
  { fails. unfold s. rewrite us_items; [|assumption..|exact I]. destruct (dated _ _ _); reflexivity. }
  assert (F3 : chrono_parse "%Y-%m-%d %H:%M" s = None) by (fails; apply us_year_fail; auto).
  assert (F4 : chrono_parse "%m/%d/%Y %H:%M" s = None).
  { fails. unfold s. rewrite us_items; [|assumption..|exact I]. destruct (dated _ _ _); reflexivity. }
  assert (F5 : chrono_parse "%y-%m-%d" s = None) by (fails; apply us_num_fail; auto).
  assert (F7 : chrono_parse "%Y-%m-%d" s = None) by (fails; apply us_year_fail; auto).
  assert (F9 : chrono_parse "%H:%M:%S.%Z" s = None) by (fails; apply us_num_fail; auto).
  assert (F10 : chrono_parse "%H:%M:%S" s = None) by (fails; apply us_num_fail; auto).
  assert (F11 : chrono_parse "%H:%M" s = None) by (fails; apply us_num_fail; auto).
  assert (F8 : chrono_parse "%m/%d/%Y" s = dated (number y) (number m) (number d)).
  { items "%m/%d/%Y"%string. unfold s. rewrite us_items; [|assumption..|exact I]. destruct (dated _ _ _); reflexivity. }
  assert (B : (0 <= number y < 10000)%Z) by (destruct Y as (L & Y); split; [apply number_bound|exact (number_lt y 4 Y (proj2 L))]).
  unfold date_time_of, DATE_TIME, DATE, TIME. cbn [try_formats]. rewrite F1, F2, F3, F4, F5, F7, F8, F9, F10, F11.
  pose proof (to_date_dated (number y) (number m) (number d) ltac:(lia)) as T. rewrite T. clear T F1 F2 F3 F4 F5 F7 F8 F9 F10 F11.
  destruct Y as ((L1 & L2) & Y). destruct y as [|y1 [|y2 y]]; cbn [length] in L1; try lia.
  assert (Y2 : digits 2 2 [y1; y2]) by (cbn [forallb] in Y |- *; rewrite !andb_true_iff in Y; destruct Y as (Ya & Yb & _); split; [cbn; lia|cbn [forallb]; rewrite Ya, Yb; reflexivity]).
  assert (F6 : chrono_parse "%m/%d/%y" s = if length y =? 0 then dated2 (number [y1; y2]) (number m) (number d) else None).
  { items "%m/%d/%y"%string. unfold s. rewrite us_items2 by assumption. destruct (dated2 _ _ _), y; reflexivity. }
  rewrite F6. unfold full_year. cbn [length]. destruct y as [|y3 y]; cbn [length Nat.eqb].
  - pose proof (to_date_dated2 (number [y1; y2]) (number m) (number d) ltac:(pose proof (number_bound [y1; y2]); pose proof (number_lt [y1; y2] 2 (proj2 Y2) ltac:(cbn; lia)); lia)) as T.
    rewrite T. cbn zeta. destruct (ymd_ok (if (number [y1; y2] <? 70)%Z then 2000 + number [y1; y2] else 1900 + number [y1; y2])%Z (number m) (number d)) eqn:O; [reflexivity|].
    destruct (ymd_ok (number [y1; y2]) (number m) (number d)) eqn:O2; [|reflexivity]. exfalso.
    apply ymd_ok_spec in O2 as (_ & V). assert (R : (0 <= number [y1; y2] <= 99)%Z) by (pose proof (number_bound [y1; y2]); pose proof (number_lt [y1; y2] 2 (proj2 Y2) ltac:(cbn; lia)); lia).
    rewrite <- Bool.not_true_iff_false in O. apply O. apply ymd_ok_spec. split; [destruct (Z.ltb_spec (number [y1; y2]) 70); lia|].
    unfold valid_date, days_in_month in *. rewrite (century_leap _ R). exact V.
  - destruct (ymd_ok _ _ _); reflexivity.
Qed.

(** ** Showing and reading back *)
Lemma number_zeros k t : number (repeat 48%N k ++ t) = number t.
Proof. unfold number, digits_value. f_equal. induction k as [|k IH]; [reflexivity|]. cbn [repeat app fold_left]. exact IH. Qed.
Lemma pad_number k n : number (pad k n) = Z.of_N n.
Proof. unfold pad. rewrite number_zeros. unfold number. rewrite dec_value. reflexivity. Qed.
Lemma pad_digits k n : forallb is_ascii_digit (pad k n) = true.
Proof. unfold pad. rewrite forallb_app, (dec_digits n), andb_true_r. induction (k - length (dec n)); [reflexivity|exact IHn0]. Qed.
Lemma pad_nonempty k n : pad k n <> [].
Proof. unfold pad. pose proof (dec_nonempty n). destruct (repeat _ _); [exact H|discriminate]. Qed.
Fixpoint nupto (k : nat) (n : N) : list N := match k with O => [] | S k => n :: nupto k (n + 1)%N end.
Lemma nupto_in k : forall a n, (a <= n < a + N.of_nat k)%N -> In n (nupto k a).
Proof.
  induction k as [|k IH]; intros a n H; [lia|]. cbn [nupto]. destruct (N.eq_dec a n) as [->|]; [left; reflexivity|right]. apply IH. lia.
Qed.
Lemma pad2_length n : (n < 100)%N -> length (pad 2 n) = 2.
Proof.
  intro H. assert (K : forallb (fun n => length (pad 2 n) =? 2) (nupto 100 0) = true) by (vm_compute; reflexivity).
  rewrite forallb_forall in K. apply Nat.eqb_eq, K, nupto_in. cbn. lia.
Qed.
Lemma pad4_length n : (n < 10000)%N -> length (pad 4 n) = 4.
Proof.
  intro H. assert (K : forallb (fun n => length (pad 4 n) =? 4) (nupto (N.to_nat 10000) 0) = true) by (vm_compute; reflexivity).
  rewrite forallb_forall in K. apply Nat.eqb_eq, K, nupto_in. rewrite N2Nat.id. lia.
Qed.
Lemma pad2 n : (0 <= n < 100)%Z -> digits 2 2 (pad 2 (Z.to_N n)) /\ number (pad 2 (Z.to_N n)) = n.
Proof. intro H. split; [split; [rewrite pad2_length; lia|apply pad_digits]|rewrite pad_number; lia]. Qed.
Lemma pad4 n : (0 <= n < 10000)%Z -> digits 4 4 (pad 4 (Z.to_N n)) /\ number (pad 4 (Z.to_N n)) = n.
Proof. intro H. split; [split; [rewrite pad4_length; lia|apply pad_digits]|rewrite pad_number; lia]. Qed.

Lemma show_date_items y m d rest is : (-262143 <= y <= 262142)%Z -> valid_date y m d ->
  parse_items (IYear :: ILiteral 45%N :: IMonth :: ILiteral 45%N :: IDay :: is) (show_date y m d ++ rest) parsed_new = parse_items is rest (pd (Some y) None m d).
Proof.
  intros Y V. pose proof (valid_day _ _ _ V) as D. pose proof V as (M & _).
  destruct (pad2 m ltac:(lia)) as (Pm & Nm), (pad2 d ltac:(lia)) as (Pd & Nd).
  assert (O : dated y m d = Some (pd (Some y) None m d)).
  { unfold dated. rewrite (proj2 (in_range_spec (-2147483648) y 2147483647) ltac:(lia)), (proj2 (in_range_spec 1 m 12) M), (proj2 (in_range_spec 1 d 31) D). reflexivity. }
  unfold show_date, show_year. destruct (in_range 0 y 9999) eqn:R.
  - apply in_range_spec in R. destruct (pad4 y ltac:(lia)) as (Py & Ny). rewrite <- !app_assoc. cbn [app].
    change (pad 4 (Z.to_N y) ++ c_minus :: pad 2 (Z.to_N m) ++ c_minus :: pad 2 (Z.to_N d) ++ rest) with (iso (pad 4 (Z.to_N y)) (pad 2 (Z.to_N m)) (pad 2 (Z.to_N d)) rest).
    rewrite iso_items by assumption. rewrite Ny, Nm, Nd, O. reflexivity.
  - assert (E : (if (y <? 0)%Z then - number (pad 4 (Z.to_N (Z.abs y))) else number (pad 4 (Z.to_N (Z.abs y))))%Z = y) by (rewrite pad_number; destruct (Z.ltb_spec y 0); lia).
    rewrite <- ?app_assoc. cbn [app]. rewrite <- ?app_assoc. cbn [app]. rewrite <- ?app_assoc. cbn [app].
    pose proof (signed_items (y <? 0)%Z (pad 4 (Z.to_N (Z.abs y))) (pad 2 (Z.to_N m)) (pad 2 (Z.to_N d)) rest is (pad_nonempty _ _) (pad_digits _ _) Pm Pd) as S'.
    rewrite E, Nm, Nd, O in S'. exact S'.
Qed.
Definition pt (p : parsed) (h mi s : Z) : parsed :=
  {| p_year := p_year p; p_year_mod_100 := p_year_mod_100 p; p_month := p_month p; p_day := p_day p; p_hour := Some h; p_minute := Some mi; p_second := Some s |}.
Definition valid_time (h mi s : Z) : Prop := (0 <= h <= 23 /\ 0 <= mi <= 59 /\ 0 <= s <= 60)%Z.
Lemma show_time_items h mi s rest is p : valid_time h mi s ->
  parse_items (IHour :: ILiteral 58%N :: IMinute :: ILiteral 58%N :: ISecond :: is) (show_time h mi s ++ rest) p = parse_items is rest (pt p h mi s).
Proof.
  intros (H & M & S'). destruct (pad2 h ltac:(lia)) as (Ph & Nh), (pad2 mi ltac:(lia)) as (Pm & Nm), (pad2 s ltac:(lia)) as (Ps & Ns).
  unfold show_time. rewrite <- !app_assoc. cbn [app]. 
  rewrite num_step; [|reflexivity|destruct Ph as (L & Ph); split; [lia|exact Ph]|right; reflexivity]. rewrite Nh. cbn [set_item]. rewrite (proj2 (in_range_spec 0 h 23) H). cbn [obind].
  rewrite lit_step. rewrite num_step; [|reflexivity|destruct Pm as (L & Pm); split; [lia|exact Pm]|right; reflexivity]. rewrite Nm. cbn [set_item]. rewrite (proj2 (in_range_spec 0 mi 59) M). cbn [obind].
  rewrite lit_step. rewrite num_step; [|reflexivity|destruct Ps as (L & Ps); split; [lia|exact Ps]|left; destruct Ps; lia]. rewrite Ns. cbn [set_item]. rewrite (proj2 (in_range_spec 0 s 60) S'). cbn [obind].
  reflexivity.
Qed.
Definition valid_date_time (d : date_time) : Prop :=
  match d with
  | DTDate y m d => (-262143 <= y <= 262142)%Z /\ valid_date y m d
  | DTDateAndTime y m d h mi s => ((-262143 <= y <= 262142)%Z /\ valid_date y m d) /\ valid_time h mi s
  | DTTime h mi s => valid_time h mi s
  end.
(** a signed year cannot be read by a format that begins with another number *)
Lemma sign_fail (i : item) is (c : char) r p : isnum i = true -> c = c_minus \/ c = c_plus -> parse_items (i :: is) (c :: r) p = None.
Proof. intros I [-> | ->]; destruct i; try discriminate; reflexivity. Qed.
Lemma show_date_shape y m d : (-262143 <= y <= 262142)%Z -> valid_date y m d ->
  (exists a b e, show_date y m d = iso a b e [] /\ digits 4 4 a /\ digits 2 2 b /\ digits 2 2 e /\ number a = y /\ number b = m /\ number e = d)
  \/ exists c r, show_date y m d = c :: r /\ (c = c_minus \/ c = c_plus).
Proof.
  intros Y V. pose proof (valid_day _ _ _ V) as D. pose proof V as (M & _).
  destruct (pad2 m ltac:(lia)) as (Pm & Nm), (pad2 d ltac:(lia)) as (Pd & Nd).
  unfold show_date, show_year. destruct (in_range 0 y 9999) eqn:R.
  - left. apply in_range_spec in R. destruct (pad4 y ltac:(lia)) as (Py & Ny).
    exists (pad 4 (Z.to_N y)), (pad 2 (Z.to_N m)), (pad 2 (Z.to_N d)). unfold iso. rewrite app_nil_r. auto 10.
  - right. eexists _, _. cbn [app]. split; [reflexivity|]. destruct (y <? 0)%Z; auto.
Qed.
Theorem round_trip x : valid_date_time x -> date_time_of (show_date_time x) = Some x.
Proof.
  destruct x as [y m d|y m d h mi s|h mi s]; intro V; cbn [valid_date_time show_date_time] in *.
  - destruct V as (Y & V). destruct (show_date_shape y m d Y V) as [(a & b & e & -> & Da & Db & De & <- & <- & <-)|(c & r & E & C)].
    + rewrite read_iso by assumption. rewrite (proj2 (ymd_ok_spec _ _ _) (conj Y V)). reflexivity.
    + pose proof (fun is => show_date_items y m d [] is Y V) as K'. rewrite app_nil_r in K'.
      set (s := show_date y m d) in *.
      assert (F1 : chrono_parse "%Y-%m-%d %H:%M:%S" s = None) by (fails; rewrite K'; reflexivity).
      assert (F2 : chrono_parse "%m/%d/%Y %H:%M:%S" s = None) by (fails; rewrite E; apply sign_fail; auto).
      assert (F3 : chrono_parse "%Y-%m-%d %H:%M" s = None) by (fails; rewrite K'; reflexivity).
      assert (F4 : chrono_parse "%m/%d/%Y %H:%M" s = None) by (fails; rewrite E; apply sign_fail; auto).
      assert (F5 : chrono_parse "%y-%m-%d" s = None) by (fails; rewrite E; apply sign_fail; auto).
      assert (F6 : chrono_parse "%m/%d/%y" s = None) by (fails; rewrite E; apply sign_fail; auto).
      assert (F7 : chrono_parse "%Y-%m-%d" s = Some (pd (Some y) None m d)).
      { items "%Y-%m-%d"%string. rewrite K'. reflexivity. }
      unfold date_time_of, DATE_TIME, DATE, TIME. cbn [try_formats]. rewrite F1, F2, F3, F4, F5, F6, F7.
      unfold read_date, to_naive_date, pd. cbn [p_year p_year_mod_100 p_month p_day]. rewrite (proj2 (ymd_ok_spec _ _ _) (conj Y V)). reflexivity.
  - destruct V as ((Y & V) & T). pose proof (fun is => show_date_items y m d ([c_space] ++ show_time h mi s) is Y V) as K.
    pose proof (fun p => show_time_items h mi s [] [] p T) as Kt. rewrite app_nil_r in Kt.
    set (t := show_date y m d ++ [c_space] ++ show_time h mi s) in *.
    assert (F1 : chrono_parse "%Y-%m-%d %H:%M:%S" t = Some (pt (pd (Some y) None m d) h mi s)).
    { items "%Y-%m-%d %H:%M:%S"%string. rewrite K. 
      assert (W : forall is p, parse_items (ISpace :: is) ([c_space] ++ show_time h mi s) p = parse_items is (show_time h mi s) p).
      { intros is p. cbn [parse_items parse_item app]. replace (trim_start (c_space :: show_time h mi s)) with (show_time h mi s); [reflexivity|].
        destruct T as (H & _). destruct (pad2 h ltac:(lia)) as (Ph & _). unfold show_time. pose proof (trim_digits (pad 2 (Z.to_N h)) ([c_colon] ++ pad 2 (Z.to_N mi) ++ [c_colon] ++ pad 2 (Z.to_N s)) (digits_nonempty _ _ _ Ph) (proj2 Ph)) as X.
        symmetry. exact X. }
      rewrite W, Kt. reflexivity. }
    unfold date_time_of, DATE_TIME. cbn [try_formats]. rewrite F1. unfold read_date_time, to_naive_date, to_naive_time, pt, pd. cbn [p_year p_year_mod_100 p_month p_day p_hour p_minute p_second].
    rewrite (proj2 (ymd_ok_spec _ _ _) (conj Y V)). reflexivity.
  - pose proof (fun is p => show_time_items h mi s [] is p V) as Kt. rewrite app_nil_r in Kt. pose proof V as (H & _). destruct (pad2 h ltac:(lia)) as (Ph & _).
    assert (Fy : forall is p, parse_items (IYear :: ILiteral 45%N :: is) (show_time h mi s) p = None).
    { intros is p. unfold show_time. rewrite year_step; [|destruct Ph as (L & Ph); split; [lia|exact Ph]|right; reflexivity]. destruct (set_item _ _ _); [|reflexivity]. apply lit_fail. reflexivity. }
    assert (Fn : forall i c is p, isnum i = true -> (c_colon =? c)%N = false -> parse_items (i :: ILiteral c :: is) (show_time h mi s) p = None).
    { intros i c is p Hi Hc. apply num_lit_fail; [exact Hi|destruct Ph as (L & Ph); split; [lia|exact Ph]|right; reflexivity|exact Hc]. }
    set (t := show_time h mi s) in *.
    assert (F1 : chrono_parse "%Y-%m-%d %H:%M:%S" t = None) by (fails; apply Fy).
    assert (F2 : chrono_parse "%m/%d/%Y %H:%M:%S" t = None) by (fails; apply Fn; reflexivity).
    assert (F3 : chrono_parse "%Y-%m-%d %H:%M" t = None) by (fails; apply Fy).
    assert (F4 : chrono_parse "%m/%d/%Y %H:%M" t = None) by (fails; apply Fn; reflexivity).
    assert (F5 : chrono_parse "%y-%m-%d" t = None) by (fails; apply Fn; reflexivity).
    assert (F6 : chrono_parse "%m/%d/%y" t = None) by (fails; apply Fn; reflexivity).
    assert (F7 : chrono_parse "%Y-%m-%d" t = None) by (fails; apply Fy).
    assert (F8 : chrono_parse "%m/%d/%Y" t = None) by (fails; apply Fn; reflexivity).
    assert (F9 : chrono_parse "%H:%M:%S.%Z" t = None) by (fails; rewrite Kt; reflexivity).
    assert (F10 : chrono_parse "%H:%M:%S" t = Some (pt parsed_new h mi s)).
    { items "%H:%M:%S"%string. rewrite Kt. reflexivity. }
    unfold date_time_of, DATE_TIME, DATE, TIME. cbn [try_formats]. rewrite F1, F2, F3, F4, F5, F6, F7, F8, F9, F10. reflexivity.
Qed.

(** ** Whatever is read is a date or a time *)
Definition opt_in (lo hi : Z) (x : option Z) : Prop := match x with Some v => (lo <= v <= hi)%Z | None => True end.
Definition times_ok (p : parsed) : Prop := opt_in 0 23 (p_hour p) /\ opt_in 0 59 (p_minute p) /\ opt_in 0 60 (p_second p).
Lemma set_item_times i v p p' : set_item i v p = Some p' -> times_ok p -> times_ok p'.
Proof.
  intros E (H & M & S'). destruct i; cbn [set_item] in E; try (destruct (in_range _ _ _) eqn:R; [|discriminate]; apply in_range_spec in R); injection E as <-; (split; [|split]); cbn; auto.
Qed.
Lemma parse_items_times is : forall s p s' p', parse_items is s p = Some (s', p') -> times_ok p -> times_ok p'.
Proof.
  induction is as [|i is IH]; intros s p s' p' E T.
  - injection E as <- <-. exact T.
  - cbn [parse_items] in E. destruct (parse_item i s p) as [[s1 p1]|] eqn:P; [|discriminate]. eapply IH; [exact E|].
    assert (K : forall n, match n with Some (v, r) => option_map (fun p => (r, p)) (set_item i v p) | None => None end = Some (s1, p1) -> times_ok p1).
    { intros [[v r]|] K; [|discriminate]. destruct (set_item i v p) as [p2|] eqn:S2; [|discriminate]. injection K as <- <-. eapply set_item_times; eauto. }
    destruct i; cbn [parse_item] in P; try (exact (K _ P)); try (injection P as <- <-; exact T).
    destruct s as [|x r]; [discriminate|]. destruct (x =? c)%N; [|discriminate]. injection P as <- <-. exact T.
Qed.
Lemma chrono_times f s p : chrono_parse f s = Some p -> times_ok p.
Proof.
  unfold chrono_parse. destruct (parse_items _ s parsed_new) as [[[|c r] p']|] eqn:P; try discriminate. intro E. injection E as <-. eapply parse_items_times; [exact P|]. repeat split.
Qed.
Lemma try_formats_in read fs s x : try_formats read fs s = Some x -> exists f p, chrono_parse f s = Some p /\ read p = Some x.
Proof.
  induction fs as [|f fs IH]; [discriminate|]. cbn [try_formats]. destruct (chrono_parse f s) as [p|] eqn:C; [destruct (read p) as [x'|] eqn:R|]; auto.
  intro E. injection E as ->. eauto.
Qed.
Lemma naive_date_ok p y m d : to_naive_date p = Some (y, m, d) -> (-262143 <= y <= 262142)%Z /\ valid_date y m d.
Proof.
  unfold to_naive_date. destruct (match p_year p, p_year_mod_100 p with Some y, _ => _ | _, _ => _ end) as [y'|]; [|discriminate].
  destruct (p_month p) as [m'|]; [|discriminate]. destruct (p_day p) as [d'|]; [|discriminate]. destruct (ymd_ok y' m' d') eqn:O; [|discriminate].
  intro E. injection E as <- <- <-. apply ymd_ok_spec. exact O.
Qed.
Lemma naive_time_ok p h mi s : times_ok p -> to_naive_time p = Some (h, mi, s) -> valid_time h mi s.
Proof.
  intros (H & M & S'). unfold to_naive_time. destruct (p_hour p) as [h'|]; [|discriminate]. destruct (p_minute p) as [m'|]; [|discriminate]. intro E. injection E as <- <- <-.
  cbn in H, M. split; [exact H|]. split; [exact M|]. destruct (p_second p); cbn in S'; lia.
Qed.
Theorem read_valid s x : date_time_of s = Some x -> valid_date_time x.
Proof.
  unfold date_time_of. intro E.
  assert (K : (exists f p, chrono_parse f s = Some p /\ read_date_time p = Some x) \/ (exists f p, chrono_parse f s = Some p /\ read_date p = Some x) \/ (exists f p, chrono_parse f s = Some p /\ read_time p = Some x)).
  { destruct (try_formats read_date_time DATE_TIME s) eqn:T1; [injection E as ->; left; eapply try_formats_in; eauto|].
    destruct (try_formats read_date DATE s) eqn:T2; [injection E as ->; right; left; eapply try_formats_in; eauto|].
    right; right; eapply try_formats_in; eauto. }
  destruct K as [(f & p & C & R)|[(f & p & C & R)|(f & p & C & R)]]; pose proof (chrono_times _ _ _ C) as T.
  - unfold read_date_time in R. destruct (to_naive_date p) as [[[y m] d]|] eqn:D; [|discriminate]. destruct (to_naive_time p) as [[[h mi] s']|] eqn:Tm; [|discriminate].
    injection R as <-. split; [eapply naive_date_ok; eauto|eapply naive_time_ok; eauto].
  - unfold read_date in R. destruct (to_naive_date p) as [[[y m] d]|] eqn:D; [|discriminate]. injection R as <-. eapply naive_date_ok; eauto.
  - unfold read_time in R. destruct (to_naive_time p) as [[[h mi] s']|] eqn:Tm; [|discriminate]. injection R as <-. eapply naive_time_ok; eauto.
Qed.

(** ** Date tokens *)
Lemma shape_says t : date_shape t <-> exists ymd, date_says t ymd.
Proof.
  split.
  - intros (a & b & c & [(-> & A & B & C)|(-> & A & B & C)]); eexists; constructor; assumption.
  - intros (ymd & [y m d Y M D|m d y M D Y]); [exists y, m, d; left|exists m, d, y; right]; auto.
Qed.
Lemma says_read t y m d : date_says t (y, m, d) -> date_time_of t = if ymd_ok y m d then Some (DTDate y m d) else None.
Proof.
  intro H. remember (y, m, d) as e eqn:E. destruct H as [y' m' d' Y M D|m' d' y' M D Y]; injection E as <- <- <-.
  - pose proof (read_iso y' m' d' Y M D) as R. unfold iso in R. rewrite app_nil_r in R. exact R.
  - pose proof (read_us m' d' y' M D Y) as R. unfold us in R. rewrite app_nil_r in R. exact R.
Qed.
Lemma says_year t y m d : date_says t (y, m, d) -> (0 <= y < 10000)%Z.
Proof.
  intro H. remember (y, m, d) as e eqn:E. destruct H as [y' m' d' Y M D|m' d' y' M D Y]; injection E as <- <- <-; destruct Y as (L & Y).
  - split; [apply number_bound|exact (number_lt y' 4 Y (proj2 L))].
  - pose proof (number_bound y'). pose proof (number_lt y' 4 Y (proj2 L)). unfold full_year. destruct (Nat.eqb_spec (length y') 2) as [E2|]; [|lia].
    pose proof (number_lt y' 2 Y ltac:(lia)). destruct (Z.ltb_spec (number y') 70); lia.
Qed.
Lemma says_ok t y m d : date_says t (y, m, d) -> (ymd_ok y m d = true <-> valid_date y m d).
Proof. intro H. pose proof (says_year _ _ _ _ H). rewrite ymd_ok_spec. split; [tauto|]. intro V. split; [lia|exact V]. Qed.
(** ** Times, alone and after a date *)
Definition timed (p : parsed) (h mi : Z) (s : option Z) : option parsed :=
  if in_range 0 h 23 && in_range 0 mi 59 && match s with Some s => in_range 0 s 60 | None => true end
  then Some {| p_year := p_year p; p_year_mod_100 := p_year_mod_100 p; p_month := p_month p; p_day := p_day p; p_hour := Some h; p_minute := Some mi; p_second := match s with Some s => Some s | None => p_second p end |}
  else None.
Lemma minutes_items h mi rest is p : digits 1 2 h -> digits 1 2 mi -> (length mi = 2 \/ not_digit_head rest) ->
  parse_items (IHour :: ILiteral 58%N :: IMinute :: is) (h ++ c_colon :: mi ++ rest) p = obind (timed p (number h) (number mi) None) (parse_items is rest).
Proof.
  intros H M R. rewrite num_step; [|reflexivity|exact H|right; reflexivity]. unfold timed. cbn [set_item].
  destruct (in_range 0 (number h) 23); cbn [obind andb]; [|reflexivity].
  rewrite lit_step, num_step; [|reflexivity|exact M|exact R]. cbn [set_item]. destruct (in_range 0 (number mi) 59); reflexivity.
Qed.
Lemma seconds_items h mi s p : digits 1 2 h -> digits 1 2 mi -> digits 1 2 s -> forall is,
  parse_items (IHour :: ILiteral 58%N :: IMinute :: ILiteral 58%N :: ISecond :: is) (h ++ c_colon :: mi ++ c_colon :: s) p
  = obind (timed p (number h) (number mi) (Some (number s))) (parse_items is []).
Proof.
  intros H M S' is. rewrite minutes_items; [|exact H|exact M|right; reflexivity]. unfold timed.
  destruct (in_range 0 (number h) 23); cbn [obind andb]; [|reflexivity]. destruct (in_range 0 (number mi) 59); cbn [obind andb]; [|reflexivity].
  rewrite lit_step. rewrite <- (app_nil_r s) at 1. rewrite num_step; [|reflexivity|exact S'|right; exact I]. cbn [set_item].
  destruct (in_range 0 (number s) 60); reflexivity.
Qed.
Lemma time_head t x : time_says t x -> exists h r, t = h ++ c_colon :: r /\ digits 1 2 h.
Proof. destruct 1 as [h mi H M|h mi s H M S']; exists h; eexists; (split; [reflexivity|exact H]). Qed.
Lemma timed_clock p h mi s : match timed p h mi s with Some _ => clock h mi (match s with Some s => s | None => 0%Z end) | None => ~ clock h mi (match s with Some s => s | None => 0%Z end) end.
Proof.
  unfold timed, clock. destruct (in_range 0 h 23) eqn:E1; cbn [andb]; unfold in_range in E1; [|lia].
  destruct (in_range 0 mi 59) eqn:E2; cbn [andb]; unfold in_range in E2; [|lia].
  destruct s as [s|]; [|lia]. destruct (in_range 0 s 60) eqn:E3; unfold in_range in E3; lia.
Qed.
(** what the two endings of a format make of a time *)
Lemma time_endings t h mi s p : time_says t (h, mi, s) ->
  let a := parse_items [IHour; ILiteral 58%N; IMinute; ILiteral 58%N; ISecond] t p in
  let b := parse_items [IHour; ILiteral 58%N; IMinute] t p in
  (exists q, (exists s', timed p h mi s' = Some q /\ match s' with Some s => s | None => 0%Z end = s) /\ (a = Some ([], q) \/ a = None /\ b = Some ([], q)) /\ clock h mi s)
  \/ ((a = None) /\ (b = None \/ exists c r q, b = Some (c :: r, q))) /\ ~ clock h mi s.
Proof.
  intros T a b. inversion T as [h' mi' H M Et Ex|h' mi' s'' H M S' Et Ex]; subst t h mi s.
  - cbn [app] in a, b. pose proof (fun is => minutes_items h' mi' [] is p H M (or_intror I)) as K. rewrite app_nil_r in K.
    pose proof (timed_clock p (number h') (number mi') None) as C. cbn match in C. unfold a, b. rewrite !K. destruct (timed p (number h') (number mi') None) as [q|] eqn:Q; cbn [obind].
    + left. exists q. split; [exists None; split; [exact Q|reflexivity]|]. split; [right; split; reflexivity|exact C].
    + right. split; [split; [reflexivity|left; reflexivity]|exact C].
  - cbn [app] in a, b. pose proof (timed_clock p (number h') (number mi') (Some (number s''))) as C. cbn match in C.
    unfold a, b. rewrite seconds_items by assumption. rewrite minutes_items by (assumption || (right; reflexivity)). destruct (timed p (number h') (number mi') (Some (number s''))) as [q|] eqn:Q; cbn [obind].
    + left. exists q. split; [exists (Some (number s'')); split; [exact Q|reflexivity]|]. split; [left; reflexivity|exact C].
    + right. split; [split; [reflexivity|]|exact C]. destruct (timed p (number h') (number mi') None) as [q|]; cbn [obind]; [|left; reflexivity]. right. eexists _, _, _. reflexivity.
Qed.
Lemma time_fails t x i c is p : time_says t x -> isnum i = true -> (c_colon =? c)%N = false -> parse_items (i :: ILiteral c :: is) t p = None.
Proof. intros T I' C. destruct (time_head t x T) as (h & r & -> & H). apply num_lit_fail; [exact I'|exact H|right; reflexivity|exact C]. Qed.
Lemma time_year_fails t x is p : time_says t x -> parse_items (IYear :: ILiteral 45%N :: is) t p = None.
Proof.
  intro T. destruct (time_head t x T) as (h & r & -> & H). rewrite year_step; [|destruct H as (L & H); split; [lia|exact H]|right; reflexivity].
  destruct (set_item _ _ _); [|reflexivity]. apply lit_fail. reflexivity.
Qed.
Lemma parse_items_app is js s p : parse_items (is ++ js) s p = match parse_items is s p with Some (r, q) => parse_items js r q | None => None end.
Proof.
  revert s p. induction is as [|i is IH]; intros s p; [reflexivity|]. cbn [app parse_items]. destruct (parse_item i s p) as [[s1 p1]|]; [apply IH|reflexivity].
Qed.
Lemma read_clock t h mi s : time_says t (h, mi, s) -> (clock h mi s -> date_time_of t = Some (DTTime h mi s)) /\ (~ clock h mi s -> date_time_of t = None).
Proof.
  intro T.
  assert (F1 : chrono_parse "%Y-%m-%d %H:%M:%S" t = None) by (fails; eapply time_year_fails; eauto).
  assert (F2 : chrono_parse "%m/%d/%Y %H:%M:%S" t = None) by (fails; eapply time_fails; eauto).
  assert (F3 : chrono_parse "%Y-%m-%d %H:%M" t = None) by (fails; eapply time_year_fails; eauto).
  assert (F4 : chrono_parse "%m/%d/%Y %H:%M" t = None) by (fails; eapply time_fails; eauto).
  assert (F5 : chrono_parse "%y-%m-%d" t = None) by (fails; eapply time_fails; eauto).
  assert (F6 : chrono_parse "%m/%d/%y" t = None) by (fails; eapply time_fails; eauto).
  assert (F7 : chrono_parse "%Y-%m-%d" t = None) by (fails; eapply time_year_fails; eauto).
  assert (F8 : chrono_parse "%m/%d/%Y" t = None) by (fails; eapply time_fails; eauto).
  assert (F9 : chrono_parse "%H:%M:%S.%Z" t = None).
  { fails. change [IHour; ILiteral 58; IMinute; ILiteral 58; ISecond; ILiteral 46; IZoneName] with ([IHour; ILiteral 58; IMinute; ILiteral 58; ISecond] ++ [ILiteral 46; IZoneName]). rewrite parse_items_app.
    destruct (time_endings t h mi s parsed_new T) as [(q & _ & [E|(E & _)] & _)|((E & _) & _)]; rewrite E; reflexivity. }
  unfold date_time_of, DATE_TIME, DATE, TIME. cbn [try_formats]. rewrite F1, F2, F3, F4, F5, F6, F7, F8, F9. clear F1 F2 F3 F4 F5 F6 F7 F8 F9.
  items "%H:%M:%S"%string. change (strftime (lit "%H:%M")) with [IHour; ILiteral 58; IMinute].
  destruct (time_endings t h mi s parsed_new T) as [(q & (s' & Q & <-) & E & C)|((E & E') & C)].
  - split; [intros _|contradiction].
    assert (R : read_time q = Some (DTTime h mi (match s' with Some s => s | None => 0%Z end))).
    { unfold timed in Q. match type of Q with (if ?b then _ else _) = _ => destruct b; [|discriminate Q] end. injection Q as <-. destruct s'; reflexivity. }
    destruct E as [E|(E & E')]; rewrite E; [|rewrite E']; rewrite R; reflexivity.
  - split; [contradiction|intros _]. rewrite E. destruct E' as [E'|(c & r & q & E')]; rewrite E'; reflexivity.
Qed.
(** dates with all four digits of the year, followed by a blank and a time *)
Lemma space_time t x rest : time_says t x -> parse_item ISpace (c_space :: t) rest = Some (t, rest).
Proof.
  intro T. destruct (time_head t x T) as (h & r & -> & (L & H)). cbn [parse_item]. assert (N : h <> []) by (destruct h; [cbn in L; lia|discriminate]).
  pose proof (trim_digits h (c_colon :: r) N H) as K. change (trim_start (c_space :: h ++ c_colon :: r)) with (trim_start (h ++ c_colon :: r)). rewrite K. reflexivity.
Qed.
(** the items of a time leave the date alone *)
Definition clock_item (i : item) : bool := match i with IHour | IMinute | ISecond | ILiteral _ => true | _ => false end.
Lemma clock_items k : forallb clock_item k = true -> forall s p s' q, parse_items k s p = Some (s', q) ->
  p_year q = p_year p /\ p_year_mod_100 q = p_year_mod_100 p /\ p_month q = p_month p /\ p_day q = p_day p.
Proof.
  induction k as [|i k IH]; intros Hk s p s' q E; [injection E as <- <-; auto|]. cbn [forallb] in Hk. apply andb_prop in Hk as (Hi & Hk). cbn [parse_items] in E.
  destruct (parse_item i s p) as [[s1 p1]|] eqn:P; [|discriminate E]. apply (IH Hk) in E. destruct E as (E1 & E2 & E3 & E4). rewrite E1, E2, E3, E4. clear - Hi P.
  destruct i; try discriminate Hi; cbn [parse_item] in P.
  4: { destruct s as [|x r]; [discriminate P|]. destruct (x =? c)%N; [|discriminate P]. injection P as <- <-. auto. }
  all: destruct (scan_number (Some 2) (trim_start s)) as [[v r]|]; [|discriminate P]; cbn [set_item] in P; destruct (in_range _ _ _); [|discriminate P]; injection P as <- <-; auto.
Qed.
(** the formats with a date, given what its items make of the text *)
Lemma moment_core is t y m d h mi s p (whole : str) : time_says t (h, mi, s) ->
  (forall js, parse_items (is ++ js) whole parsed_new = obind p (fun p => parse_items js (c_space :: t) p)) ->
  (p = dated y m d) -> (-2147483648 <= y <= 2147483647)%Z ->
  let a := match match parse_items (is ++ [ISpace; IHour; ILiteral 58%N; IMinute; ILiteral 58%N; ISecond]) whole parsed_new with Some ([], p) => Some p | _ => None end with Some p => read_date_time p | None => None end in
  let b := match match parse_items (is ++ [ISpace; IHour; ILiteral 58%N; IMinute]) whole parsed_new with Some ([], p) => Some p | _ => None end with Some p => read_date_time p | None => None end in
  (ymd_ok y m d = true /\ clock h mi s -> a = Some (DTDateAndTime y m d h mi s) \/ a = None /\ b = Some (DTDateAndTime y m d h mi s))
  /\ (~ (ymd_ok y m d = true /\ clock h mi s) -> a = None /\ b = None).
Proof.
  intros T K P Y a b. unfold a, b. rewrite !K, P. unfold dated. replace (in_range (-2147483648) y 2147483647) with true by (symmetry; apply in_range_spec; lia). cbn [andb].
  destruct (in_range 1 m 12 && in_range 1 d 31) eqn:R.
  - cbn [obind]. set (p0 := pd (Some y) None m d).
    assert (W : forall js, parse_items (ISpace :: js) (c_space :: t) p0 = parse_items js t p0).
    { intro js. cbn [parse_items]. rewrite (space_time t _ p0 T). reflexivity. }
    rewrite !W. destruct (time_endings t h mi s p0 T) as [(q & (s' & Q & <-) & E & C)|((E & E') & C)].
    + assert (D : read_date_time q = if ymd_ok y m d then Some (DTDateAndTime y m d h mi (match s' with Some s => s | None => 0%Z end)) else None).
      { unfold timed in Q. match type of Q with (if ?b then _ else _) = _ => destruct b; [|discriminate Q] end. injection Q as <-. unfold read_date_time, to_naive_date, to_naive_time, p0, pd. cbn [p_year p_year_mod_100 p_month p_day p_hour p_minute p_second].
        destruct (ymd_ok y m d), s'; reflexivity. }
      destruct (ymd_ok y m d) eqn:O.
      * split; [intros _|intro F; exfalso; apply F; auto]. destruct E as [E|(E & E')]; rewrite E; [left|right; rewrite E'; split; [reflexivity|]]; exact D.
      * split; [intros (F & _); discriminate F|intros _]. 
        assert (N : forall k, forallb clock_item k = true -> match match parse_items k t p0 with Some ([], p) => Some p | _ => None end with Some p => read_date_time p | None => None end = None).
        { intros k Hk. destruct (parse_items k t p0) as [[[|c r] q']|] eqn:Z; try reflexivity. apply (clock_items k) in Z; [|exact Hk]. destruct Z as (Z1 & Z2 & Z3 & Z4).
          unfold read_date_time, to_naive_date. rewrite Z1, Z2, Z3, Z4. cbn [p0 pd p_year p_year_mod_100 p_month p_day]. rewrite O. reflexivity. }
        split; apply N; reflexivity.
    + split; [intros (_ & F); contradiction|intros _]. rewrite E. split; [reflexivity|]. destruct E' as [E'|(c & r & q & E')]; rewrite E'; reflexivity.
  - cbn [obind]. split; [|auto]. intros (O & _). exfalso. apply ymd_ok_spec in O as (_ & V). pose proof (valid_day _ _ _ V). destruct V as (M & _).
    apply andb_false_iff in R as [R|R]; unfold in_range in R; lia.
Qed.

(** the dates, with the year as it is written *)
Inductive literal_date : str -> Z -> Z -> Z -> Prop :=
| ld_iso y m d : digits 4 4 y -> digits 2 2 m -> digits 2 2 d -> literal_date (y ++ [c_minus] ++ m ++ [c_minus] ++ d) (number y) (number m) (number d)
| ld_us m d y : digits 1 2 m -> digits 1 2 d -> digits 2 4 y -> literal_date (m ++ [c_slash] ++ d ++ [c_slash] ++ y) (number y) (number m) (number d).
Lemma read_moment D t y m d h mi s : literal_date D y m d -> time_says t (h, mi, s) ->
  (valid_date y m d /\ clock h mi s -> date_time_of (D ++ [c_space] ++ t) = Some (DTDateAndTime y m d h mi s))
  /\ (~ (valid_date y m d /\ clock h mi s) -> date_time_of (D ++ [c_space] ++ t) = None).
Proof.
  intros L T. destruct L as [y m d Y M D|m d y M D Y].
  - replace ((y ++ [c_minus] ++ m ++ [c_minus] ++ d) ++ [c_space] ++ t) with (iso y m d (c_space :: t)) by (unfold iso; rewrite <- !app_assoc; cbn [app]; rewrite <- ?app_assoc; reflexivity).
    set (w := iso y m d (c_space :: t)).
    assert (B : (0 <= number y < 10000)%Z) by (destruct Y as (L & Y); split; [apply number_bound|exact (number_lt y 4 Y (proj2 L))]).
    assert (O : ymd_ok (number y) (number m) (number d) = true <-> valid_date (number y) (number m) (number d)) by (rewrite ymd_ok_spec; intuition lia).
    pose proof (moment_core [IYear; ILiteral 45; IMonth; ILiteral 45; IDay] t (number y) (number m) (number d) h mi s (dated (number y) (number m) (number d)) w T
      (fun js => iso_items y m d (c_space :: t) js Y M D) eq_refl ltac:(lia)) as C. cbn [app] in C.
    assert (F2 : chrono_parse "%m/%d/%Y %H:%M:%S" w = None) by (fails; apply iso_num_fail; auto).
    assert (F4 : chrono_parse "%m/%d/%Y %H:%M" w = None) by (fails; apply iso_num_fail; auto).
    assert (F5 : chrono_parse "%y-%m-%d" w = None) by (fails; apply iso_num_fail; auto).
    assert (F6 : chrono_parse "%m/%d/%y" w = None) by (fails; apply iso_num_fail; auto).
    assert (F8 : chrono_parse "%m/%d/%Y" w = None) by (fails; apply iso_num_fail; auto).
    assert (F9 : chrono_parse "%H:%M:%S.%Z" w = None) by (fails; apply iso_num_fail; auto).
    assert (F10 : chrono_parse "%H:%M:%S" w = None) by (fails; apply iso_num_fail; auto).
    assert (F11 : chrono_parse "%H:%M" w = None) by (fails; apply iso_num_fail; auto).
    assert (F7 : chrono_parse "%Y-%m-%d" w = None).
    { items "%Y-%m-%d"%string. unfold w. rewrite iso_items by assumption. destruct (dated _ _ _); reflexivity. }
    unfold date_time_of, DATE_TIME, DATE, TIME. cbn [try_formats]. rewrite F2, F4, F5, F6, F7, F8, F9, F10, F11.
    items "%Y-%m-%d %H:%M:%S"%string. change (strftime (lit "%Y-%m-%d %H:%M")) with [IYear; ILiteral 45; IMonth; ILiteral 45; IDay; ISpace; IHour; ILiteral 58; IMinute].
    destruct C as (C1 & C2). rewrite <- O. split; intro V.
    + destruct (C1 V) as [E|(E & E')]; rewrite E; [reflexivity|rewrite E'; reflexivity].
    + destruct (C2 V) as (E & E'). rewrite E, E'. reflexivity.
  - replace ((m ++ [c_slash] ++ d ++ [c_slash] ++ y) ++ [c_space] ++ t) with (us m d y (c_space :: t)) by (unfold us; rewrite <- !app_assoc; cbn [app]; rewrite <- ?app_assoc; reflexivity).
    set (w := us m d y (c_space :: t)). assert (Y1 : digits 1 4 y) by (destruct Y as (L & Y); split; [lia|exact Y]).
    assert (B : (0 <= number y < 10000)%Z) by (destruct Y as (L & Y); split; [apply number_bound|exact (number_lt y 4 Y (proj2 L))]).
    assert (O : ymd_ok (number y) (number m) (number d) = true <-> valid_date (number y) (number m) (number d)) by (rewrite ymd_ok_spec; intuition lia).
    pose proof (moment_core [IMonth; ILiteral 47; IDay; ILiteral 47; IYear] t (number y) (number m) (number d) h mi s (dated (number y) (number m) (number d)) w T
      (fun js => us_items y m d (c_space :: t) js Y1 M D eq_refl) eq_refl ltac:(lia)) as C. cbn [app] in C.
    assert (F1 : chrono_parse "%Y-%m-%d %H:%M:%S" w = None) by (fails; apply us_year_fail; auto).
    assert (F3 : chrono_parse "%Y-%m-%d %H:%M" w = None) by (fails; apply us_year_fail; auto).
    assert (F5 : chrono_parse "%y-%m-%d" w = None) by (fails; apply us_num_fail; auto).
    assert (F7 : chrono_parse "%Y-%m-%d" w = None) by (fails; apply us_year_fail; auto).
    assert (F9 : chrono_parse "%H:%M:%S.%Z" w = None) by (fails; apply us_num_fail; auto).
    assert (F10 : chrono_parse "%H:%M:%S" w = None) by (fails; apply us_num_fail; auto).
    assert (F11 : chrono_parse "%H:%M" w = None) by (fails; apply us_num_fail; auto).
    assert (F8 : chrono_parse "%m/%d/%Y" w = None).
    { items "%m/%d/%Y"%string. unfold w. rewrite us_items; [|assumption..|reflexivity]. destruct (dated _ _ _); reflexivity. }
    assert (F6 : chrono_parse "%m/%d/%y" w = None).
    { items "%m/%d/%y"%string. unfold w. destruct Y as ((L1 & L2) & Y). destruct y as [|y1 [|y2 y]]; cbn [length] in L1; try lia.
      assert (Y2 : digits 2 2 [y1; y2]) by (cbn [forallb] in Y |- *; rewrite !andb_true_iff in Y; destruct Y as (Ya & Yb & _); split; [cbn; lia|cbn [forallb]; rewrite Ya, Yb; reflexivity]).
      change (us m d (y1 :: y2 :: y) (c_space :: t)) with (us m d (y1 :: y2 :: (y ++ c_space :: t)) []) || replace (us m d (y1 :: y2 :: y) (c_space :: t)) with (us m d (y1 :: y2 :: (y ++ c_space :: t)) []) by (unfold us; rewrite app_nil_r; reflexivity).
      rewrite us_items2 by assumption. destruct (dated2 _ _ _); [|reflexivity]. cbn [obind parse_items]. destruct y; reflexivity. }
    unfold date_time_of, DATE_TIME, DATE, TIME. cbn [try_formats]. rewrite F1, F3, F5, F6, F7, F8, F9, F10, F11.
    items "%m/%d/%Y %H:%M:%S"%string. change (strftime (lit "%m/%d/%Y %H:%M")) with [IMonth; ILiteral 47; IDay; ILiteral 47; IYear; ISpace; IHour; ILiteral 58; IMinute].
    destruct C as (C1 & C2). rewrite <- O. split; intro V.
    + destruct (C1 V) as [E|(E & E')]; rewrite E; [reflexivity|rewrite E'; reflexivity].
    + destruct (C2 V) as (E & E'). rewrite E, E'. reflexivity.
Qed.
