(** * ModuleProofs3: the same sheet in two programs. *)
From Verif Require Import Base BaseProofs Csvp SourceCode Ast AstProofs AstParser Eval EvalSpec EvalProofs EvalRounds ParsedPlain Options CellParser Sheet SheetProofs2 ModuleSpec ModuleProofs.

Notation same_cell := (fun c1 c2 => cell_ast c1 = cell_ast c2 /\ parsed_value c1 = parsed_value c2 /\ cell_var c1 = cell_var c2).
Notation same_row := (fun r1 r2 => row_fill r1 = row_fill r2 /\ row_var r1 = row_var r2 /\ Forall2 same_cell (row_cells r1) (row_cells r2)).

Lemma expand_same left : forall rs1 rs2, Forall2 same_row rs1 rs2 -> forall a1 a2 k, Forall2 same_row a1 a2 ->
  Forall2 same_row (fst (fold_left (expand_step left) rs1 (a1, k))) (fst (fold_left (expand_step left) rs2 (a2, k)))
  .
Proof.
  induction 1 as [|r1 r2 rs1 rs2 [F [V C]] _ IH]; intros a1 a2 k A; cbn [fold_left]; [exact A|]. unfold expand_step at 2 4. rewrite <- F. destruct (row_fill r1) as [f|] eqn:E.
  - cbv zeta. apply IH. apply Forall2_app; [exact A|]. induction (match fill_amount _ with Some a => a | None => left end); cbn [repeat]; constructor; auto.
  - apply IH. apply Forall2_app; [exact A|]. constructor; [|constructor]. rewrite E. auto.
Qed.
Lemma infinite_same : forall rs1 rs2, Forall2 same_row rs1 rs2 -> forall saw, multiple_infinite saw rs1 = multiple_infinite saw rs2.
Proof. induction 1 as [|r1 r2 rs1 rs2 [F _] _ IH]; intro saw; cbn [multiple_infinite]; [reflexivity|]. unfold is_infinite. rewrite <- F. destruct (match row_fill r1 with Some _ => _ | None => _ end), saw; auto. Qed.
Lemma left_same s1 s2 : same_sheet s1 s2 -> rows_left_over s1 = rows_left_over s2.
Proof.
  intros [_ R]. unfold rows_left_over. f_equal. match goal with |- fold_left ?f _ _ = _ => set (g := f) end. generalize 0. induction R as [|r1 r2 rs1 rs2 [F _] _ IH]; intro k; cbn [fold_left]; [reflexivity|].
  replace (g k r2) with (g k r1) by (unfold g; rewrite F; reflexivity). apply IH.
Qed.
Lemma fills_same s1 s2 t1 t2 : same_sheet s1 s2 -> eval_fills s1 = Some t1 -> eval_fills s2 = Some t2 -> same_sheet t1 t2.
Proof.
  intros S H1 H2. pose proof (left_same _ _ S) as L. destruct S as [Fe R]. unfold eval_fills in *. rewrite <- Fe in H2. destruct (fills_expanded s1) eqn:E1; [injection H1 as <-; injection H2 as <-; split; [congruence|exact R]|].
  destruct (has_multiple_infinite_expands s1); [discriminate|]. destruct (has_multiple_infinite_expands s2); [discriminate|]. injection H1 as <-. injection H2 as <-. split; [reflexivity|]. cbn [sheet_rows].
  rewrite <- L. apply expand_same; [exact R|constructor].
Qed.
Lemma cell_variables_same y r1 r2 : row_fill r1 = row_fill r2 -> forall cs1 cs2, Forall2 same_cell cs1 cs2 -> forall i vars, cell_variables y r1 i cs1 vars = cell_variables y r2 i cs2 vars.
Proof.
  intro F. induction 1 as [|c1 c2 cs1 cs2 [_ [_ V]] _ IH]; intros i vars; cbn [cell_variables]; [reflexivity|]. rewrite V. unfold cell_reference. rewrite F. apply IH.
Qed.
Lemma sheet_variables_same s1 s2 : same_sheet s1 s2 -> sheet_variables s1 = sheet_variables s2.
Proof.
  intros [_ R]. unfold sheet_variables. generalize 0. generalize (@nil (str * node)). induction R as [|r1 r2 rs1 rs2 [F [V C]] _ IH]; intros vars y; cbn [row_variables]; [reflexivity|].
  rewrite V. unfold row_reference. rewrite F. rewrite (cell_variables_same y r1 r2 F _ _ C). apply IH.
Qed.
(** the formulas of a sheet that was read are plain *)
Lemma cell_parse_plain co f r c r' : cell_parse co f r = Ok (c, r') -> forall n, cell_ast c = Some n -> plain n.
Proof.
  unfold cell_parse. intro H. apply bind_ok in H as [[c0 r0] [_ H]]. apply bind_ok in H as [a [H1 H]]. injection H as <- <-. cbn [cell_ast]. intros n ->.
  unfold parse_formula in H1. destruct (starts_with _ _); [|discriminate]. destruct (ast_parse _ _ _) eqn:P; try discriminate. injection H1 as <-. eapply parsed_plain; eauto.
Qed.
Lemma row_parse_plain co fs r : row_parse co fs = Ok r -> forall c n, In c (row_cells r) -> cell_ast c = Some n -> plain n.
Proof.
  unfold row_parse. intro H. apply bind_ok in H as [[cs r0] [H1 H]]. injection H as <-. cbn [row_cells]. revert cs r0 H1. generalize default_row.
  induction fs as [|f fs IH]; intros r1 cs r0 H1; cbn [row_parse_cells] in H1; [injection H1 as <- <-; intros c n []|].
  apply bind_ok in H1 as [[c1 r2] [H1 H2]]. apply bind_ok in H2 as [[cs2 r3] [H2 H3]]. injection H3 as <- <-. intros c n [<-|I] An; [eapply cell_parse_plain; eauto|eapply IH; eauto].
Qed.
Definition plain_sheet (s : spreadsheet) : Prop := forall r c n, In r (sheet_rows s) -> In c (row_cells r) -> cell_ast c = Some n -> plain n.
Lemma load_plain co text p : load_source co text = Ok p -> plain_defs (pr_scope p) /\ plain_sheet (pr_sheet p) /\ fills_expanded (pr_sheet p) = false.
Proof.
  unfold load_source. intro H. apply bind_ok in H as [[sc req] [H1 H]]. apply bind_ok in H as [s [H2 H]]. injection H as <-. cbn [pr_scope pr_sheet]. split.
  - destruct (code_section _); [|injection H1 as <- <-; split; intros ? ? X; discriminate X]. destruct (code_section_parse _ _) as [[? ?]| | |] eqn:C; try discriminate. injection H1 as <- <-. eapply section_plain; eauto.
  - unfold sheet_parse in H2. apply bind_ok in H2 as [rs [_ H2]]. apply bind_ok in H2 as [rows [H2 H3]]. injection H3 as <-. split; [|reflexivity]. intros r c n Hr. cbn [sheet_rows] in Hr. revert rows H2 Hr.
    induction rs as [|fs rs IH]; intros rows H2 Hr; cbn [parse_rows] in H2; [injection H2 as <-; destruct Hr|]. apply bind_ok in H2 as [r1 [H2 H3]]. apply bind_ok in H3 as [rows1 [H3 H4]]. injection H4 as <-.
    destruct Hr as [<-|Hr]; [|eapply IH; eauto]. destruct (row_parse co fs) eqn:P; try discriminate. injection H2 as <-. eapply row_parse_plain; eauto.
Qed.
(** filling copies rows *)
Lemma fills_cells s t : eval_fills s = Some t -> forall r, In r (sheet_rows t) -> exists r0, In r0 (sheet_rows s) /\ row_cells r = row_cells r0.
Proof.
  unfold eval_fills. destruct (fills_expanded s); [intros [= <-]; eauto|]. destruct (has_multiple_infinite_expands s); [discriminate|]. intros [= <-]. cbn [sheet_rows].
  generalize (rows_left_over s). intro left. set (P := fun r => exists r0, In r0 (sheet_rows s) /\ row_cells r = row_cells r0).
  assert (X : forall rs acc, incl rs (sheet_rows s) -> (forall r, In r (fst acc) -> P r) -> forall r, In r (fst (fold_left (expand_step left) rs acc)) -> P r).
  { induction rs as [|r1 rs IH]; intros [acc k] I A r Hr; cbn [fold_left] in Hr; [apply A, Hr|]. apply IH in Hr; [exact Hr|intros z Hz; apply I; right; exact Hz|]. clear Hr r. cbn [fst] in A.
    assert (P1 : forall r, row_cells r = row_cells r1 -> P r) by (intros r E; exists r1; split; [apply I; left; reflexivity|exact E]).
    unfold expand_step. destruct (row_fill r1); cbn [fst]; intros r Hr; apply in_app_or in Hr as [Hr|Hr]; auto; [apply repeat_spec in Hr; subst r; apply P1; reflexivity|destruct Hr as [<-|[]]; apply P1; reflexivity]. }
  intros r Hr. eapply X; [apply incl_refl| |exact Hr]. intros ? [].
Qed.
