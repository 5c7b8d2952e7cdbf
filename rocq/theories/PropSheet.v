(** * PropSheet: fills, variables of the sheet, scopes (C22 - C27, C52). *)
From Coq Require Import Permutation.
From Verif Require Import Base BaseProofs Csvp SourceCode Ast AstProofs AstLexer AstParser Eval EvalSpec EvalRounds ParsedPlain Options CellParser PropCell Sheet SheetSpec SheetProofs SheetProofs2 SheetProofs3.

(** ** C23: expansion *)
(** Every row that is not a fill is there once, every fill of n there n times, next to each other and
    in the order of the source; nothing else is there (the number of rows is the sum). *)
Theorem C23_expansion : forall s s', fills_expanded s = false -> eval_fills s = Some s' ->
  let rows := sheet_rows s in let left := room rows in
  fills_expanded s' = true
  /\ length (sheet_rows s') = total left rows
  /\ (forall i r k, nth_error rows i = Some r -> k < copies left r ->
        exists c, nth_error (sheet_rows s') (offset left rows i + k) = Some c /\ is_copy (offset left rows i) r c)
  /\ (forall p c, nth_error (sheet_rows s') p = Some c ->
        exists i r k, nth_error rows i = Some r /\ k < copies left r /\ p = offset left rows i + k).
Proof.
  intros s s' Hf He. cbn zeta. destruct (eval_fills_rows s s' He Hf) as [R F]. split; [exact F|]. split; [rewrite R; apply blocks_length|]. split.
  - intros i r k Hr Hk. rewrite R. eexists. split; [apply (blocks_nth _ _ 0 i r k Hr Hk)|]. apply relocate_copy.
  - intros p c Hp. rewrite R in Hp. destruct (expanded_row _ _ _ _ Hp) as [i [r [k [A [B [C _]]]]]]. eauto 8.
Qed.
Print Assumptions C23_expansion.
Theorem C23_twice : forall s s', eval_fills s = Some s' -> eval_fills s' = Some s'.
Proof.
  intros s s' H. assert (F : fills_expanded s' = true).
  { unfold eval_fills in H. destruct (fills_expanded s) eqn:E; [congruence|]. destruct (has_multiple_infinite_expands s); [discriminate|]. injection H as <-. reflexivity. }
  unfold eval_fills. rewrite F. reflexivity.
Qed.
Print Assumptions C23_twice.

(** an example: the text of tests/variable_scoping.rs and more *)
Definition ex_program (t : str) : program :=
  match load_source ex_co t with Ok p => p | _ => {| pr_scope := empty_scope; pr_sheet := {| sheet_rows := []; fills_expanded := true |}; pr_required := [] |} end.
Definition ex_source : str := lit "bar := test + 1
---
Foo,Bar,Baz,=SUM(test)
![[f=3]][[var=test]],=test*5,=bar,
[[var=end]]last,=test,=end
".
Definition ex_prog : program := Eval vm_compute in ex_program ex_source.
Definition ex_expanded : spreadsheet := Eval vm_compute in match eval_fills (pr_sheet ex_prog) with Some s => s | None => pr_sheet ex_prog end.
Example C23_nonvacuous : load_source ex_co ex_source = Ok ex_prog /\ eval_fills (pr_sheet ex_prog) = Some ex_expanded
  /\ map (copies (room (sheet_rows (pr_sheet ex_prog)))) (sheet_rows (pr_sheet ex_prog)) = [1; 3; 1] /\ length (sheet_rows ex_expanded) = 5.
Proof. vm_compute. repeat split; reflexivity. Qed.

(** ** C24: number of rows *)
Theorem C24_exactly_1000 : forall s s' i r, fills_expanded s = false -> eval_fills s = Some s' ->
  nth_error (sheet_rows s) i = Some r -> unbounded r -> total 0 (sheet_rows s) <= 1000 -> length (sheet_rows s') = 1000.
Proof.
  intros s s' i r Hf He Hr U Ht. destruct (C23_expansion s s' Hf He) as [_ [L _]]. rewrite L.
  rewrite (total_one _ _ i r Hr U).
  - unfold room. lia.
  - intros j r' Hj Uj. unfold eval_fills in He. rewrite Hf in He. destruct (has_multiple_infinite_expands s) eqn:M; [discriminate|].
    destruct (Nat.eq_dec j i) as [E|E]; [exact E|]. exfalso. assert (multiple_infinite false (sheet_rows s) = true); [|unfold has_multiple_infinite_expands in M; congruence].
    apply multiple_infinite_spec. right. destruct (Nat.lt_ge_cases i j) as [L1|L1]; [exists i, j, r, r'|exists j, i, r', r]; repeat split; auto; lia.
Qed.
Print Assumptions C24_exactly_1000.
Theorem C24_sum : forall s s', fills_expanded s = false -> eval_fills s = Some s' ->
  (forall r, In r (sheet_rows s) -> ~ unbounded r) -> forall any, length (sheet_rows s') = total any (sheet_rows s).
Proof.
  intros s s' Hf He N any. destruct (C23_expansion s s' Hf He) as [_ [L _]]. rewrite L. apply total_bounded. exact N.
Qed.
Print Assumptions C24_sum.
Theorem C24_two_unbounded : forall s, fills_expanded s = false ->
  (eval_fills s = None <-> exists i j ri rj, i < j /\ nth_error (sheet_rows s) i = Some ri /\ nth_error (sheet_rows s) j = Some rj /\ unbounded ri /\ unbounded rj).
Proof.
  intros s Hf. unfold eval_fills. rewrite Hf. unfold has_multiple_infinite_expands.
  pose proof (multiple_infinite_spec (sheet_rows s) false) as M. destruct (multiple_infinite false (sheet_rows s)).
  - split; [|reflexivity]. intros _. destruct (proj1 M eq_refl) as [[H _]|H]; [discriminate|exact H].
  - split; [discriminate|]. intro H. assert (false = true) by (apply M; right; exact H). discriminate.
Qed.
Print Assumptions C24_two_unbounded.
Definition ex_unbounded : spreadsheet := Eval vm_compute in pr_sheet (ex_program (lit "a
![[fill]]b
![[fill=2]]c
")).
Example C24_nonvacuous : exists s' r, fills_expanded ex_unbounded = false /\ eval_fills ex_unbounded = Some s'
  /\ nth_error (sheet_rows ex_unbounded) 1 = Some r /\ unbounded r /\ total 0 (sheet_rows ex_unbounded) = 3 /\ length (sheet_rows s') = 1000.
Proof.
  assert (E : exists s', eval_fills ex_unbounded = Some s') by (eexists; reflexivity). destruct E as [s' E].
  exists s'. eexists. split; [reflexivity|]. split; [exact E|]. split; [reflexivity|].
  assert (U : unbounded (nth 1 (sheet_rows ex_unbounded) default_row)) by (eexists; split; reflexivity).
  split; [exact U|]. split; [reflexivity|]. eapply (C24_exactly_1000 ex_unbounded s' 1); [reflexivity|exact E|reflexivity|exact U|vm_compute; lia].
Qed.
Example C24_two : eval_fills (pr_sheet (ex_program (lit "![[fill]]a
![[fill]]b"))) = None.
Proof. reflexivity. Qed.

(** ** C25: the recorded extent *)
(** The full property is about every fill. Proved: every fill that ends within the first 1000 rows
    and, if it is unbounded, is not followed by more rows. *)
Theorem C25_extent_partial : forall s s' i r, fills_expanded s = false -> eval_fills s = Some s' ->
  let rows := sheet_rows s in let left := room rows in let first := offset left rows i in let after := first + copies left r in
  nth_error rows i = Some r -> 0 < copies left r -> after <= 1000 -> (unbounded r -> after = length (sheet_rows s')) ->
  forall p c f, first <= p < after -> nth_error (sheet_rows s') p = Some c -> row_fill c = Some f ->
  (forall a, fill_contains f a = true <-> first <= addr_y a < after)
  /\ names_rows (show_row_range (start_row f) (fill_last_row f)) first (after - 1).
Proof.
  intros s s' i r Hf He rows left first after Hr Hc Ha Hu p c f Hp Np Hfill.
  destruct (C23_expansion s s' Hf He) as [_ [L [X _]]]. fold rows in X, L. fold left in X, L.
  destruct (X i r (p - first) Hr) as [c' [N' [_ [_ [_ C]]]]]. { unfold after in Hp. fold left. lia. }
  fold first in N', C. replace (first + (p - first)) with p in N' by lia. assert (c' = c) as -> by congruence.
  rewrite Hfill in C. destruct (row_fill r) as [f0|] eqn:Er; [|discriminate]. cbn [option_map] in C. injection C as ->.
  assert (LR : fill_last_row {| fill_amount := fill_amount f0; start_row := first |} = after - 1).
  { unfold fill_last_row, fill_end_row. cbn [fill_amount start_row]. change ROW_MAX with 1000.
    destruct (fill_amount f0) as [n|] eqn:Ea.
    - assert (copies left r = n) by (unfold copies; rewrite Er, Ea; reflexivity). unfold after in *. lia.
    - assert (U : unbounded r) by (exists f0; auto). specialize (Hu U).
      assert (total left rows = total 0 rows + left).
      { apply (total_one left rows i r Hr U). intros j r' Hj Uj. destruct (Nat.eq_dec j i) as [E|E]; [exact E|]. exfalso.
        assert (eval_fills s = None); [|congruence]. apply C24_two_unbounded; [exact Hf|].
        destruct (Nat.lt_ge_cases i j) as [L1|L1]; [exists i, j, r, r'|exists j, i, r', r]; repeat split; auto; lia. }
      assert (copies left r = left) by (unfold copies; rewrite Er, Ea; reflexivity). unfold left, room in *. lia. }
  split.
  - intro a. unfold fill_contains. rewrite LR. cbn [start_row]. rewrite andb_true_iff, !Nat.leb_le. lia.
  - rewrite LR. cbn [start_row]. apply show_row_range_spec.
Qed.
Print Assumptions C25_extent_partial.
Example C25_nonvacuous : exists s' r c f, let s := pr_sheet ex_prog in let rows := sheet_rows s in let left := room rows in
  eval_fills s = Some s' /\ nth_error rows 1 = Some r /\ copies left r = 3 /\ offset left rows 1 = 1
  /\ nth_error (sheet_rows s') 2 = Some c /\ row_fill c = Some f /\ ~ unbounded r /\ show_row_range (start_row f) (fill_last_row f) = lit "2:4".
Proof.
  do 4 eexists. cbn zeta. split; [reflexivity|]. split; [reflexivity|]. split; [vm_compute; reflexivity|]. split; [reflexivity|]. split; [reflexivity|].
  split; [reflexivity|]. split; [|vm_compute; reflexivity]. intros [f [H1 H2]]. vm_compute in H1. injection H1 as <-. discriminate.
Qed.
(** An unbounded fill that is followed by a row claims that row, too: rows 1 to 998 are its copies (from 0), row 999 is not,
    and still counts as inside; from elsewhere the range reads 2:1000. *)
Definition ex_followed : spreadsheet := Eval vm_compute in pr_sheet (ex_program (lit "a
![[fill]]b
c
")).
Definition ex_expand (s : spreadsheet) : spreadsheet := match eval_fills s with Some s' => s' | None => s end.
Definition nth_fill (s : spreadsheet) (p : nat) : option fill := match nth_error (sheet_rows s) p with Some r => row_fill r | None => None end.
Theorem C25_unbounded_refuted : exists s' r f, eval_fills ex_followed = Some s'
  /\ nth_error (sheet_rows ex_followed) 1 = Some r /\ copies (room (sheet_rows ex_followed)) r = 998
  /\ nth_fill s' 1 = Some f /\ fill_contains f {| addr_x := 0; addr_y := 999 |} = true
  /\ length (sheet_rows s') = 1000 /\ nth_fill s' 999 = None.
Proof.
  exists (ex_expand ex_followed), (nth 1 (sheet_rows ex_followed) default_row), {| fill_amount := None; start_row := 1 |}.
  split; [vm_cast_no_check (eq_refl (Some (ex_expand ex_followed)))|]. split; [reflexivity|].
  split; [vm_compute; reflexivity|]. split; [vm_compute; reflexivity|]. split; [vm_compute; reflexivity|]. split; vm_compute; reflexivity.
Qed.
Print Assumptions C25_unbounded_refuted.
(** A fill of 1001 rows records 1000 of them. *)
Definition ex_beyond : spreadsheet := Eval vm_compute in pr_sheet (ex_program (lit "![[fill=1001]]b")).
Theorem C25_beyond_1000_refuted : exists s' r f, eval_fills ex_beyond = Some s'
  /\ nth_error (sheet_rows ex_beyond) 0 = Some r /\ copies (room (sheet_rows ex_beyond)) r = 1001
  /\ nth_fill s' 1000 = Some f /\ fill_contains f {| addr_x := 0; addr_y := 1000 |} = false.
Proof.
  exists (ex_expand ex_beyond), (nth 0 (sheet_rows ex_beyond) default_row), {| fill_amount := Some 1001; start_row := 0 |}.
  split; [vm_cast_no_check (eq_refl (Some (ex_expand ex_beyond)))|]. split; [reflexivity|].
  split; [vm_compute; reflexivity|]. split; vm_compute; reflexivity.
Qed.
Print Assumptions C25_beyond_1000_refuted.
