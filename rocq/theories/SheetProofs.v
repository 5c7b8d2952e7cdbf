(** * SheetProofs: expansion of fills, A1 notation, variables of a sheet. *)
From Verif Require Import Base BaseProofs Csvp Ast AstProofs Eval EvalRounds Options Sheet SheetSpec.

(** ** Expansion *)
Definition relocate (start : nat) (r : row) : row :=
  match row_fill r with Some f => with_fill (fill_clone_to_row f start) r | None => r end.
Fixpoint blocks (left start : nat) (rs : list row) : list row :=
  match rs with
  | [] => []
  | r :: rs => repeat (relocate start r) (copies left r) ++ blocks left (start + copies left r) rs
  end.
Lemma relocate_copy start r : is_copy start r (relocate start r).
Proof. unfold relocate, is_copy. destruct r as [c o [f|] v]; cbn; auto. Qed.
Lemma is_copy_unique start r a b : is_copy start r a -> is_copy start r b -> a = b.
Proof.
  intros [A1 [A2 [A3 A4]]] [B1 [B2 [B3 B4]]]. destruct a, b; cbn in *; congruence.
Qed.
Lemma expand_blocks left : forall rs acc n,
  fold_left (expand_step left) rs (acc, n) = (acc ++ blocks left n rs, n + total left rs).
Proof.
  induction rs as [|r rs IH]; intros acc n; cbn [fold_left blocks].
  - unfold total. cbn. now rewrite app_nil_r, Nat.add_0_r.
  - unfold expand_step at 2. unfold total. cbn [map list_sum fold_right]. fold (list_sum (map (copies left) rs)). fold (total left rs).
    unfold relocate, copies. destruct (row_fill r) as [f|]; cbn [fill_clone_to_row fill_amount].
    + destruct (fill_amount f) as [a|]; rewrite IH, <- app_assoc, Nat.add_assoc; reflexivity.
    + rewrite IH, <- app_assoc, Nat.add_assoc. reflexivity.
Qed.
Lemma blocks_length left : forall rs start, length (blocks left start rs) = total left rs.
Proof.
  induction rs as [|r rs IH]; intro start; [reflexivity|]. cbn [blocks]. rewrite app_length, repeat_length, IH. reflexivity.
Qed.
Lemma total_cons left r rs : total left (r :: rs) = copies left r + total left rs.
Proof. reflexivity. Qed.
Lemma total_app left a b : total left (a ++ b) = total left a + total left b.
Proof. unfold total. rewrite map_app, list_sum_app. reflexivity. Qed.
Lemma blocks_nth left : forall rs start i r k, nth_error rs i = Some r -> k < copies left r ->
  nth_error (blocks left start rs) (offset left rs i + k) = Some (relocate (start + offset left rs i) r).
Proof.
  induction rs as [|r0 rs IH]; intros start [|i] r k Hr Hk; try discriminate.
  - injection Hr as ->. unfold offset. cbn [firstn total map list_sum fold_right blocks]. unfold total. cbn [map list_sum fold_right].
    rewrite Nat.add_0_l, Nat.add_0_r, nth_error_app1 by (rewrite repeat_length; exact Hk).
    apply nth_error_repeat. exact Hk.
  - unfold offset. cbn [firstn blocks]. rewrite total_cons. cbn in Hr. fold (offset left rs i).
    rewrite nth_error_app2 by (rewrite repeat_length; lia). rewrite repeat_length.
    replace (copies left r0 + offset left rs i + k - copies left r0) with (offset left rs i + k) by lia.
    rewrite (IH (start + copies left r0) i r k Hr Hk). f_equal. f_equal. lia.
Qed.
Lemma blocks_cover left : forall rs p, p < total left rs ->
  exists i r k, nth_error rs i = Some r /\ k < copies left r /\ p = offset left rs i + k.
Proof.
  induction rs as [|r0 rs IH]; intros p Hp; [cbn in Hp; lia|]. rewrite total_cons in Hp.
  destruct (Nat.lt_ge_cases p (copies left r0)) as [L|L].
  - exists 0, r0, p. split; [reflexivity|]. split; [exact L|reflexivity].
  - destruct (IH (p - copies left r0)) as [i [r [k [H1 [H2 H3]]]]]; [lia|]. exists (S i), r, k. split; [exact H1|]. split; [exact H2|].
    unfold offset in *. cbn [firstn]. rewrite total_cons. lia.
Qed.
Lemma offset_disjoint left : forall rs i r k j r' k', nth_error rs i = Some r -> nth_error rs j = Some r' ->
  k < copies left r -> k' < copies left r' -> offset left rs i + k = offset left rs j + k' -> i = j.
Proof.
  assert (X : forall rs i r j, nth_error rs i = Some r -> i < j -> offset left rs i + copies left r <= offset left rs j).
  { induction rs as [|r0 rs IH]; intros i r [|j] H L; try lia; [destruct i; discriminate|].
    destruct i as [|i]; unfold offset; cbn [firstn]; rewrite ?total_cons; cbn in H.
    - injection H as ->. unfold total. cbn. lia.
    - pose proof (IH i r j H ltac:(lia)). unfold offset in *. lia. }
  intros rs i r k j r' k' Hi Hj Hk Hk' E. destruct (lt_eq_lt_dec i j) as [[L|L]|L]; [|exact L|].
  - pose proof (X _ _ _ _ Hi L). lia.
  - pose proof (X _ _ _ _ Hj L). lia.
Qed.
Lemma unbounded_iff r : is_infinite r = true <-> unbounded r.
Proof.
  unfold is_infinite, unbounded. destruct (row_fill r) as [f|].
  - destruct (fill_amount f) eqn:E; split; try discriminate; try reflexivity.
    + intros [g [[= <-] H]]. congruence.
    + intros _. eauto.
  - split; [discriminate|]. intros [f [H _]]. discriminate.
Qed.
Lemma multiple_infinite_spec : forall rs saw, multiple_infinite saw rs = true <->
  (saw = true /\ exists r, In r rs /\ unbounded r) \/
  (exists i j ri rj, i < j /\ nth_error rs i = Some ri /\ nth_error rs j = Some rj /\ unbounded ri /\ unbounded rj).
Proof.
  induction rs as [|r rs IH]; intro saw; cbn [multiple_infinite].
  - split; [discriminate|]. intros [[_ [r [[] _]]]|[i [j [ri [rj [_ [H _]]]]]]]. destruct i; discriminate.
  - destruct (is_infinite r) eqn:E.
    + destruct saw.
      * split; [|reflexivity]. intros _. left. split; [reflexivity|]. exists r. split; [left; reflexivity|]. now apply unbounded_iff.
      * rewrite IH. apply unbounded_iff in E. split.
        -- intros [[_ [r' [H1 H2]]]|[i [j [ri [rj [H1 [H2 [H3 [H4 H5]]]]]]]]].
           ++ right. apply In_nth_error in H1 as [j H1]. exists 0, (S j), r, r'. cbn. repeat split; auto. lia.
           ++ right. exists (S i), (S j), ri, rj. repeat split; auto. lia.
        -- intros [[H _]|[i [j [ri [rj [H1 [H2 [H3 [H4 H5]]]]]]]]]; [discriminate|]. destruct i as [|i], j as [|j]; try lia; cbn in H2, H3.
           ++ left. split; [reflexivity|]. exists rj. split; [eapply nth_error_In; eauto|exact H5].
           ++ right. exists i, j, ri, rj. repeat split; auto. lia.
    + rewrite IH. assert (N : ~ unbounded r) by (intro H; apply unbounded_iff in H; congruence). split.
      * intros [[H [r' [H1 H2]]]|[i [j [ri [rj [H1 [H2 [H3 [H4 H5]]]]]]]]].
        -- left. split; [exact H|]. exists r'. split; [right; exact H1|exact H2].
        -- right. exists (S i), (S j), ri, rj. repeat split; auto. lia.
      * intros [[H [r' [[->|H1] H2]]]|[i [j [ri [rj [H1 [H2 [H3 [H4 H5]]]]]]]]]; [contradiction| |].
        -- left. eauto.
        -- destruct i as [|i], j as [|j]; try lia; cbn in H2, H3.
           ++ injection H2 as ->. contradiction.
           ++ right. exists i, j, ri, rj. repeat split; auto. lia.
Qed.
Lemma rows_left_over_room s : rows_left_over s = room (sheet_rows s).
Proof.
  unfold rows_left_over, room, total. change ROW_MAX with 1000. f_equal.
  assert (X : forall rs n, fold_left (fun acc r => acc + match row_fill r with
    | Some f => match fill_amount f with Some a => a | None => 0 end | None => 1 end) rs n = n + list_sum (map (copies 0) rs)).
  { induction rs as [|r rs IH]; intro n; cbn [fold_left map]; [cbn; lia|]. rewrite IH. cbn [list_sum fold_right].
    fold (list_sum (map (copies 0) rs)). unfold copies at 2. destruct (row_fill r) as [f|]; [destruct (fill_amount f)|]; lia. }
  rewrite X. reflexivity.
Qed.
Lemma eval_fills_rows s s' : eval_fills s = Some s' -> fills_expanded s = false ->
  sheet_rows s' = blocks (room (sheet_rows s)) 0 (sheet_rows s) /\ fills_expanded s' = true.
Proof.
  unfold eval_fills. intros H E. rewrite E in H. destruct (has_multiple_infinite_expands s); [discriminate|].
  injection H as <-. cbn [sheet_rows fills_expanded]. rewrite expand_blocks, rows_left_over_room. split; reflexivity.
Qed.
Lemma total_bounded left left' rs : (forall r, In r rs -> ~ unbounded r) -> total left rs = total left' rs.
Proof.
  induction rs as [|r rs IH]; intro H; [reflexivity|]. rewrite !total_cons, IH by (intros x Hx; apply H; right; exact Hx).
  f_equal. assert (N : ~ unbounded r) by (apply H; left; reflexivity). unfold copies.
  destruct (row_fill r) as [f|] eqn:E; [|reflexivity]. destruct (fill_amount f) eqn:Ea; [reflexivity|]. destruct N. exists f. auto.
Qed.
Lemma total_one left : forall rs i r, nth_error rs i = Some r -> unbounded r ->
  (forall j r', nth_error rs j = Some r' -> unbounded r' -> j = i) -> total left rs = total 0 rs + left.
Proof.
  induction rs as [|r0 rs IH]; intros [|i] r Hr U Hu; try discriminate; rewrite !total_cons.
  - injection Hr as ->. assert (N : forall x, In x rs -> ~ unbounded x).
    { intros x Hx Ux. apply In_nth_error in Hx as [j Hx]. specialize (Hu (S j) x Hx Ux). discriminate. }
    rewrite (total_bounded left 0 rs N). destruct U as [f [U1 U2]]. unfold copies. rewrite U1, U2. lia.
  - rewrite (IH i r Hr U). 2: { intros j r' H H'. specialize (Hu (S j) r' H H'). lia. }
    assert (N : ~ unbounded r0) by (intro H; specialize (Hu 0 r0 eq_refl H); discriminate).
    assert (copies left r0 = copies 0 r0) as ->.
    { unfold copies. destruct (row_fill r0) as [f|] eqn:E; [|reflexivity]. destruct (fill_amount f) eqn:Ea; [reflexivity|]. destruct N. exists f. auto. }
    lia.
Qed.

(** ** A1 notation *)
Lemma letters_value_app a b : letters_value (a ++ b) = (letters_value a * 26 ^ N.of_nat (length b) + letters_value b)%N.
Proof.
  unfold letters_value. rewrite fold_left_app. generalize (fold_left (fun acc c : N => (acc * 26 + (c - 64))%N) a 0%N) as n.
  induction b as [|c b IH]; intro n; cbn [fold_left length].
  - cbn. lia.
  - rewrite IH, (IH (0 * 26 + (c - 64))%N). rewrite Nat2N.inj_succ, N.pow_succ_r'. lia.
Qed.
Lemma col_name_fuel_spec : forall fuel n, n < fuel -> letters (col_name_fuel fuel n) /\ letters_value (col_name_fuel fuel n) = N.of_nat (S n).
Proof.
  induction fuel as [|fuel IH]; intros n H; [lia|]. cbn [col_name_fuel].
  assert (M : n mod 26 < 26) by (apply Nat.mod_upper_bound; lia).
  assert (L : ((65 <=? 65 + N.of_nat (n mod 26)) && (65 + N.of_nat (n mod 26) <=? 90) = true)%N).
  { apply andb_true_iff. split; apply N.leb_le; lia. }
  destruct (Nat.ltb_spec n 26) as [B|B].
  - split; [split; [discriminate|cbn [forallb]; rewrite L; reflexivity]|]. unfold letters_value. cbn [fold_left]. rewrite Nat.mod_small by exact B. lia.
  - pose proof (Nat.div_mod n 26 ltac:(lia)) as D. assert (D1 : 1 <= n / 26) by (apply Nat.div_le_lower_bound; lia).
    assert (D2 : n / 26 - 1 < fuel). { pose proof (Nat.div_lt n 26 ltac:(lia) ltac:(lia)). lia. }
    destruct (IH _ D2) as [[I1 I2] I3]. split.
    + split; [destruct (col_name_fuel fuel (n / 26 - 1)); discriminate|]. rewrite forallb_app, I2. cbn [forallb andb]. rewrite L. reflexivity.
    + rewrite letters_value_app, I3. unfold letters_value. cbn [fold_left length]. change (26 ^ N.of_nat 1)%N with 26%N.
      generalize dependent (n / 26). intros q. generalize dependent (n mod 26). intros. lia.
Qed.
Lemma col_name_spec n : letters (col_name n) /\ letters_value (col_name n) = N.of_nat (S n).
Proof. apply col_name_fuel_spec. lia. Qed.
Lemma show_address_spec x y : names_cell (show_address {| addr_x := x; addr_y := y |}) x y.
Proof.
  exists (col_name x), (row_name y). destruct (col_name_spec x) as [H1 H2]. split; [reflexivity|]. split; [exact H1|]. split; [exact H2|].
  unfold row_name. split; [apply dec_all_digits|apply dec_value].
Qed.
Lemma show_col_range_spec x a b : names_column_part (show_col_range x a b) x a b.
Proof. eexists _, _. split; [reflexivity|]. split; apply show_address_spec. Qed.
Lemma show_row_range_spec a b : names_rows (show_row_range a b) a b.
Proof. exists (row_name a), (row_name b). split; [reflexivity|]. unfold row_name. rewrite !dec_value. repeat split; auto using dec_all_digits. Qed.
Lemma show_row_spec a : names_rows (show_row a) a a.
Proof. exact (show_row_range_spec a a). Qed.
(** different cells have different names *)
Lemma letters_digits_split a b a' b' : letters a -> letters a' -> all_digits b = true -> all_digits b' = true -> a ++ b = a' ++ b' -> a = a' /\ b = b'.
Proof.
  intros [_ A] [_ A'] B B' E.
  assert (X : forall a b a' b', forallb (fun c => (65 <=? c) && (c <=? 90))%N a = true -> forallb (fun c => (65 <=? c) && (c <=? 90))%N a' = true ->
    forallb is_ascii_digit b = true -> forallb is_ascii_digit b' = true -> a ++ b = a' ++ b' -> a = a').
  { clear. induction a as [|c a IH]; intros b [|c' a'] b' A A' B B' E.
    - reflexivity.
    - cbn in E. subst b. cbn in B, A'. apply andb_true_iff in B as [B _]. apply andb_true_iff in A' as [A' _].
      unfold is_ascii_digit in B. apply andb_true_iff in B as [_ B]. apply andb_true_iff in A' as [A' _]. apply N.leb_le in B, A'. lia.
    - cbn in E. subst b'. cbn in B', A. apply andb_true_iff in B' as [B' _]. apply andb_true_iff in A as [A _].
      unfold is_ascii_digit in B'. apply andb_true_iff in B' as [_ B']. apply andb_true_iff in A as [A _]. apply N.leb_le in B', A. lia.
    - cbn in E. injection E as -> E. cbn [forallb] in A, A'. apply andb_true_iff in A as [_ A]. apply andb_true_iff in A' as [_ A'].
      f_equal. exact (IH b a' b' A A' B B' E). }
  assert (D : forall b, all_digits b = true -> forallb is_ascii_digit b = true).
  { intros s H. unfold all_digits in H. destruct s; [reflexivity|exact H]. }
  assert (a = a') as -> by (eapply (X a b a' b'); eauto). split; [reflexivity|]. eapply app_inv_head; eauto.
Qed.
Lemma names_cell_inj t x y x' y' : names_cell t x y -> names_cell t x' y' -> x = x' /\ y = y'.
Proof.
  intros [a [b [E [A [VA [B VB]]]]]] [a' [b' [E' [A' [VA' [B' VB']]]]]]. subst t.
  destruct (letters_digits_split _ _ _ _ A A' B B' E') as [<- <-]. lia.
Qed.
