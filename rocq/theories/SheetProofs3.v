(** * SheetProofs3: variables in expanded sheets; evaluation of a sheet cell by cell. *)
From Coq Require Import Permutation Sorted.
From Verif Require Import Base BaseProofs Csvp Ast AstProofs AstParser Eval EvalSpec EvalRounds ParsedPlain Options Sheet SheetSpec SheetProofs SheetProofs2.

Definition move (t : target) (y : nat) : target := match t with TRow _ => TRow y | TCell x _ => TCell x y end.
Definition target_row (t : target) : nat := match t with TRow y => y | TCell _ y => y end.
Definition started (start : nat) (f : option fill) : option fill := option_map (fun f => {| fill_amount := fill_amount f; start_row := start |}) f.

Lemma offset_mono left : forall rs i r j, nth_error rs i = Some r -> i < j -> offset left rs i + copies left r <= offset left rs j.
Proof.
  induction rs as [|r0 rs IH]; intros i r [|j] H L; try lia; [destruct i; discriminate|].
  destruct i as [|i]; unfold offset; cbn [firstn]; rewrite ?total_cons; cbn in H.
  - injection H as ->. unfold total. cbn. lia.
  - pose proof (IH i r j H ltac:(lia)). unfold offset in *. lia.
Qed.
Lemma offset_total left : forall rs i r, nth_error rs i = Some r -> offset left rs i + copies left r <= total left rs.
Proof.
  induction rs as [|r0 rs IH]; intros [|i] r H; try discriminate; unfold offset; cbn [firstn]; rewrite ?total_cons; cbn in H.
  - injection H as ->. unfold total. cbn. lia.
  - pose proof (IH i r H). unfold offset in *. lia.
Qed.
Lemma expanded_row left rs p c : nth_error (blocks left 0 rs) p = Some c ->
  exists i r k, nth_error rs i = Some r /\ k < copies left r /\ p = offset left rs i + k /\ is_copy (offset left rs i) r c.
Proof.
  intro H. destruct (blocks_cover left rs p) as [i [r [k [H1 [H2 H3]]]]].
  { rewrite <- (blocks_length left rs 0). apply nth_error_Some. congruence. }
  exists i, r, k. repeat (split; [assumption|]). subst p. rewrite (blocks_nth left rs 0 i r k H1 H2) in H. injection H as <-. apply relocate_copy.
Qed.
Section Expanded.
  Variables (s s' : spreadsheet).
  Hypothesis He : eval_fills s = Some s'.
  Hypothesis Hf : fills_expanded s = false.
  Notation rows := (sheet_rows s).
  Notation left := (room rows).
  Lemma rows_expanded : sheet_rows s' = blocks left 0 rows.
  Proof. apply (eval_fills_rows s s' He Hf). Qed.
  Lemma binds_expanded name t g : binds s' name t g -> exists i r k, nth_error rows i = Some r /\ k < copies left r
    /\ target_row t = offset left rows i + k /\ binds s name (move t i) (row_fill r) /\ g = started (offset left rows i) (row_fill r).
  Proof.
    unfold binds. rewrite rows_expanded. destruct t as [y|x y]; cbn [move target_row].
    - intros [c [H1 [H2 ->]]]. destruct (expanded_row _ _ _ _ H1) as [i [r [k [A [B [C [C1 [C2 [C3 C4]]]]]]]]].
      exists i, r, k. repeat (split; [assumption|]). split; [|exact C4]. exists r. split; [assumption|]. split; [congruence|reflexivity].
    - intros [c [d [H1 [H2 [H3 ->]]]]]. destruct (expanded_row _ _ _ _ H1) as [i [r [k [A [B [C [C1 [C2 [C3 C4]]]]]]]]].
      exists i, r, k. repeat (split; [assumption|]). split; [|exact C4]. exists r, d. split; [assumption|]. split; [congruence|auto].
  Qed.
  Lemma binds_source name t g k : binds s name t g -> (forall r, nth_error rows (target_row t) = Some r -> k < copies left r) ->
    binds s' name (move t (offset left rows (target_row t) + k)) (started (offset left rows (target_row t)) g).
  Proof.
    unfold binds. rewrite rows_expanded. destruct t as [y|x y]; cbn [move target_row].
    - intros [r [H1 [H2 ->]]] Hk. pose proof (blocks_nth left rows 0 y r k H1 (Hk _ H1)) as N. eexists. split; [exact N|].
      destruct (relocate_copy (0 + offset left rows y) r) as [_ [_ [C3 C4]]]. rewrite C3, C4. auto.
    - intros [r [d [H1 [H2 [H3 ->]]]]] Hk. pose proof (blocks_nth left rows 0 y r k H1 (Hk _ H1)) as N. eexists _, d. split; [exact N|].
      destruct (relocate_copy (0 + offset left rows y) r) as [C1 [_ [C3 C4]]]. rewrite C1, C4. auto.
  Qed.
  Lemma last_binding_expanded name t g r : last_binding s name t g -> nth_error rows (target_row t) = Some r -> 0 < copies left r ->
    last_binding s' name (move t (offset left rows (target_row t) + (copies left r - 1))) (started (offset left rows (target_row t)) g).
  Proof.
    intros [H1 H2] Hr Hc. split.
    - apply binds_source; [exact H1|]. intros r' H'. replace r' with r by congruence. lia.
    - intros t' g' H'. destruct (binds_expanded _ _ _ H') as [i [r' [k [A [B [C [D _]]]]]]].
      specialize (H2 _ _ D). assert (M : i < target_row t -> offset left rows i + k < offset left rows (target_row t)).
      { intro L. pose proof (offset_mono left rows i r' _ A L). lia. }
      assert (M2 : i = target_row t -> k <= copies left r - 1). { intros ->. replace r with r' by congruence. lia. }
      assert (M3 : i = target_row t -> offset left rows i = offset left rows (target_row t)) by (intros ->; reflexivity).
      clear H1 H' D. destruct t as [y|x y], t' as [y'|x' y']; cbn [move target_row before] in *.
      + destruct H2 as [[= H2]|H2].
        * subst i. subst y'. specialize (M2 eq_refl). destruct (Nat.eq_dec k (copies left r - 1)) as [->|E]; [left; reflexivity|right; lia].
        * right. specialize (M H2). lia.
      + destruct H2 as [H2|H2]; [discriminate|]. right. specialize (M H2). lia.
      + destruct H2 as [H2|H2]; [discriminate|]. right. destruct (Nat.eq_dec i y) as [E|E]; [specialize (M2 E); specialize (M3 E); lia|].
        specialize (M ltac:(lia)). lia.
      + destruct H2 as [[= H2 H3]|[H2|[H2 H3]]].
        * subst x' i. specialize (M2 eq_refl). destruct (Nat.eq_dec k (copies left r - 1)) as [->|E]; [left; subst y'; reflexivity|right; lia].
        * right. specialize (M H2). lia.
        * right. specialize (M2 H2). specialize (M3 H2). lia.
  Qed.
End Expanded.

(** ** Evaluation of a sheet *)
Lemma collect_ok {E A} : forall (xs : list (outcome E A)) l, collect xs = Ok l <-> xs = map (@Ok E A) l.
Proof.
  induction xs as [|x xs IH]; intro l; cbn [collect].
  - split; [intros [= <-]; reflexivity|]. destruct l; [reflexivity|discriminate].
  - destruct x as [a| | |]; cbn [bind]; [|split; [discriminate|destruct l; discriminate]..].
    destruct (collect xs) as [r| | |] eqn:C; cbn [bind].
    + split.
      * intros [= <-]. cbn [map]. f_equal. now apply IH.
      * destruct l as [|a' l]; [discriminate|]. cbn [map]. intros [= -> H]. apply IH in H. congruence.
    + split; [discriminate|]. destruct l as [|a' l]; [discriminate|]. cbn [map]. intros [= -> H]. apply IH in H. discriminate.
    + split; [discriminate|]. destruct l as [|a' l]; [discriminate|]. cbn [map]. intros [= -> H]. apply IH in H. discriminate.
    + split; [discriminate|]. destruct l as [|a' l]; [discriminate|]. cbn [map]. intros [= -> H]. apply IH in H. discriminate.
Qed.
Lemma first_failure_none {E A} : forall sched (xs : list (outcome E A)), first_failure xs sched = None <->
  forall i x, In i sched -> nth_error xs i = Some x -> is_ok x = true.
Proof.
  induction sched as [|i sched IH]; intro xs; cbn [first_failure].
  - split; [intros _ i x []|reflexivity].
  - destruct (nth_error xs i) as [x|] eqn:Q.
    + destruct (is_ok x) eqn:K.
      * rewrite IH. split; [|eauto 6 using in_cons]. intros H j y [<-|Hj] Hy; [congruence|eauto].
      * split; [discriminate|]. intro H. specialize (H i x (or_introl eq_refl) Q). congruence.
    + rewrite IH. split; [|eauto 6 using in_cons]. intros H j y [<-|Hj] Hy; [congruence|eauto].
Qed.
Lemma par_collect_ok {E A} sched (xs : list (outcome E A)) l : par_collect sched xs = Ok l <-> xs = map (@Ok E A) l.
Proof.
  unfold par_collect. split.
  - destruct (first_failure xs sched) as [x|]; [|apply collect_ok]. destruct x; discriminate.
  - intros ->. assert (first_failure (map (@Ok E A) l) sched = None) as ->; [|now apply collect_ok].
    apply first_failure_none. intros i x _ H. rewrite nth_error_map in H. destruct (nth_error l i); [injection H as <-; reflexivity|discriminate].
Qed.
Lemma mapi_nth {A B} (f : nat -> A -> B) : forall l i k, nth_error (mapi f i l) k = option_map (f (i + k)) (nth_error l k).
Proof.
  induction l as [|x l IH]; intros i [|k]; cbn [mapi nth_error option_map]; try reflexivity.
  - now rewrite Nat.add_0_r.
  - rewrite IH, Nat.add_succ_r. reflexivity.
Qed.
Lemma mapi_length {A B} (f : nat -> A -> B) : forall l i, length (mapi f i l) = length l.
Proof. induction l as [|x l IH]; intro i; cbn; auto. Qed.
(** what evaluation does to the cell at an address *)
Definition cell_evaluated (ev : eval_env) (sc : scope) (a : address) (c c' : cell) : Prop :=
  cell_field c' = cell_field c /\ parsed_value c' = parsed_value c /\ cell_options c' = cell_options c /\ cell_var c' = cell_var c
  /\ match cell_ast c with
     | None => cell_ast c' = None
     | Some n => exists m, ast_eval (ev_fuel ev) (ev_order ev a) sc (Some a) n = Ok m /\ cell_ast c' = Some m
     end.
Lemma eval_cells_ok ev sc y : forall cs x cs', eval_cells ev sc y x cs = Ok cs' ->
  length cs' = length cs /\ forall i c, nth_error cs i = Some c -> exists c', nth_error cs' i = Some c' /\ cell_evaluated ev sc {| addr_x := x + i; addr_y := y |} c c'.
Proof.
  induction cs as [|c cs IH]; intros x cs' H; cbn [eval_cells] in H.
  - injection H as <-. split; [reflexivity|]. intros [|i] c H; discriminate.
  - destruct (match cell_ast c with Some n => _ | None => _ end) as [ast| | |] eqn:E; cbn [bind] in H; try discriminate.
    destruct (eval_cells ev sc y (S x) cs) as [cs2| | |] eqn:C; cbn [bind] in H; try discriminate. injection H as <-.
    destruct (IH _ _ C) as [L N]. split; [cbn; now rewrite L|]. intros [|i] c0 H0; cbn in H0.
    + injection H0 as <-. eexists. split; [reflexivity|]. rewrite Nat.add_0_r. unfold cell_evaluated. cbn. repeat (split; [reflexivity|]).
      destruct (cell_ast c) as [n|]; [|congruence]. destruct (ast_eval _ _ _ _ n) as [m| | |]; try discriminate. injection E as <-. eauto.
    + rewrite Nat.add_succ_r. exact (N i c0 H0).
Qed.
Lemma row_eval_ok ev sc y r r' : row_eval ev sc y r = Ok r' ->
  row_options r' = row_options r /\ row_fill r' = row_fill r /\ row_var r' = row_var r /\ length (row_cells r') = length (row_cells r)
  /\ forall i c, nth_error (row_cells r) i = Some c -> exists c', nth_error (row_cells r') i = Some c' /\ cell_evaluated ev sc {| addr_x := i; addr_y := y |} c c'.
Proof.
  unfold row_eval. intro H. destruct (eval_cells ev sc y 0 (row_cells r)) as [cs| | |] eqn:E; cbn [bind] in H; try discriminate. injection H as <-.
  cbn [row_options row_fill row_var row_cells]. destruct (eval_cells_ok _ _ _ _ _ _ E) as [L N]. auto.
Qed.
Lemma eval_spreadsheet_ok ev sched p ext p' : eval_spreadsheet ev sched p ext = Ok p' ->
  let rows := sheet_rows (pr_sheet p) in let rows' := sheet_rows (pr_sheet p') in
  length rows' = length rows /\ forall y r, nth_error rows y = Some r -> exists r', nth_error rows' y = Some r' /\ row_eval ev (sheet_scope p ext) y r = Ok r'.
Proof.
  unfold eval_spreadsheet. intro H. cbn zeta.
  destruct (par_collect sched (mapi (row_eval ev (sheet_scope p ext)) 0 (sheet_rows (pr_sheet p)))) as [rows| | |] eqn:E; cbn [bind] in H; try discriminate.
  injection H as <-. cbn [pr_sheet sheet_rows]. apply par_collect_ok in E. split.
  - apply (f_equal (@length _)) in E. rewrite mapi_length, map_length in E. congruence.
  - intros y r Hr. pose proof (f_equal (fun l => nth_error l y) E) as N. cbn beta in N. rewrite mapi_nth, Hr, nth_error_map in N. cbn [option_map Nat.add] in N.
    destruct (nth_error rows y) as [r'|]; cbn in N; [|discriminate]. injection N as N. eauto.
Qed.
