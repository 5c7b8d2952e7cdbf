(** * RestyleProofs: evaluation and output do not look at the options of cells. *)
From Verif Require EvalProofs PropModules PropCompile.
From Verif Require Import Base BaseProofs Csvp CsvpSpec SourceCode Ast AstParser Eval EvalSpec Options CellParser CellSpec CellProofs CellProofs2 CellProofs8 CellLocal CellProofs9
  Sheet SheetSpec SheetProofs SheetProofs2 SheetProofs3 Targets PropTarget SameSpec SameProofs RestyleSpec.

(** ** Sheets without places and options *)
Definition bare_cell (c : cell) : cell :=
  {| cell_ast := cell_ast c; cell_field := no_field; parsed_value := parsed_value c; cell_options := default_options; cell_var := cell_var c |}.
Definition bare_row (r : row) : row :=
  {| row_cells := map bare_cell (row_cells r); row_options := default_options; row_fill := row_fill r; row_var := row_var r |}.
Definition bare_sheet (s : spreadsheet) : spreadsheet := {| sheet_rows := map bare_row (sheet_rows s); fills_expanded := fills_expanded s |}.
Lemma bare_cell_spec c c' : bare_cell c = bare_cell c' <-> restyled_cell c c'.
Proof. unfold bare_cell, restyled_cell. split; [intros [= H1 H2 H3]; auto|intros [-> [-> ->]]; reflexivity]. Qed.
Lemma bare_row_spec r r' : bare_row r = bare_row r' <-> restyled_row r r'.
Proof. unfold bare_row, restyled_row. rewrite <- (map_eq_Forall2 _ _ bare_cell_spec). split; [intros [= H1 H2 H3]; auto|intros [-> [-> ->]]; reflexivity]. Qed.
Lemma bare_sheet_spec s s' : bare_sheet s = bare_sheet s' <-> restyled s s'.
Proof. unfold bare_sheet, restyled. rewrite <- (map_eq_Forall2 _ _ bare_row_spec). split; [intros [= H1 H2]; auto|intros [-> ->]; reflexivity]. Qed.

Lemma bare_cells_eval ev sc y : forall cs x, eval_cells ev sc y x (map bare_cell cs) = omap (map bare_cell) (eval_cells ev sc y x cs).
Proof.
  induction cs as [|c cs IH]; intro x; [reflexivity|]. cbn [map eval_cells]. cbn [cell_ast bare_cell].
  match goal with |- bind ?a _ = omap _ (bind ?a _) => destruct a as [ast|e| |] end; cbn [bind omap]; auto.
  rewrite IH. destruct (eval_cells ev sc y (S x) cs); reflexivity.
Qed.
Lemma bare_row_eval ev sc y r : row_eval ev sc y (bare_row r) = omap bare_row (row_eval ev sc y r).
Proof. unfold row_eval. cbn [row_cells bare_row]. rewrite bare_cells_eval. destruct (eval_cells ev sc y 0 (row_cells r)); reflexivity. Qed.
Lemma bare_variables s : sheet_variables (bare_sheet s) = sheet_variables s.
Proof.
  unfold sheet_variables. cbn [sheet_rows bare_sheet]. generalize 0, (@nil (str * node)). induction (sheet_rows s) as [|r rs IH]; intros y vars; [reflexivity|].
  cbn [map row_variables]. rewrite IH. f_equal. cbn [bare_row row_var row_cells]. unfold row_reference. cbn [row_fill bare_row].
  generalize (match row_var r with Some x => assoc_insert x match row_fill r with Some f => NVar x (VRowRelative y f) | None => NVar x (VRow y) end vars | None => vars end).
  generalize 0. induction (row_cells r) as [|c cs IHc]; intros i v; [reflexivity|]. cbn [map cell_variables]. rewrite IHc. reflexivity.
Qed.
Lemma bare_fills s : eval_fills (bare_sheet s) = option_map bare_sheet (eval_fills s).
Proof.
  unfold eval_fills. cbn [fills_expanded bare_sheet]. destruct (fills_expanded s) eqn:Fe; [reflexivity|].
  assert (M : has_multiple_infinite_expands (bare_sheet s) = has_multiple_infinite_expands s).
  { unfold has_multiple_infinite_expands. cbn [sheet_rows bare_sheet]. generalize false. induction (sheet_rows s) as [|r rs IH]; intro saw; [reflexivity|]. cbn [map multiple_infinite].
    change (is_infinite (bare_row r)) with (is_infinite r). destruct (is_infinite r), saw; auto. }
  rewrite M. destruct (has_multiple_infinite_expands s); [reflexivity|]. cbn [option_map]. f_equal. unfold bare_sheet at 3. cbn [sheet_rows fills_expanded]. f_equal.
  assert (L : rows_left_over (bare_sheet s) = rows_left_over s).
  { unfold rows_left_over. f_equal. cbn [sheet_rows bare_sheet]. match goal with |- fold_left ?f _ _ = _ => set (g := f) end. generalize 0 at 1 2. induction (sheet_rows s) as [|r rs IH]; intro k; [reflexivity|]. cbn [map fold_left]. apply IH. }
  rewrite L. generalize (rows_left_over s). intro left. cbn [sheet_rows bare_sheet].
  assert (X : forall rs acc k, fold_left (expand_step left) (map bare_row rs) (map bare_row acc, k)
     = let (a, k') := fold_left (expand_step left) rs (acc, k) in (map bare_row a, k')).
  { induction rs as [|r rs IH]; intros acc k; [reflexivity|]. cbn [map fold_left]. unfold expand_step at 2 4. cbn [row_fill bare_row].
    destruct (row_fill r) as [f|].
    - cbv zeta. rewrite <- IH. f_equal. f_equal. rewrite map_app, map_repeat. reflexivity.
    - rewrite <- IH. f_equal. f_equal. rewrite map_app. reflexivity. }
  specialize (X (sheet_rows s) [] 0). cbn [map] in X. rewrite X. destruct (fold_left (expand_step left) (sheet_rows s) ([], 0)). reflexivity.
Qed.
Definition bare_program (p : program) : program := {| pr_scope := pr_scope p; pr_sheet := bare_sheet (pr_sheet p); pr_required := pr_required p |}.
Lemma bare_main_eval ev sched p ext : main_eval ev sched (bare_program p) ext = omap bare_program (main_eval ev sched p ext).
Proof.
  unfold main_eval, module_eval_fills. cbn [pr_sheet bare_program]. rewrite bare_fills. destruct (eval_fills (pr_sheet p)) as [s|]; [|reflexivity]. cbn [option_map bind].
  unfold eval_spreadsheet, sheet_scope. cbn [pr_scope pr_sheet pr_required]. rewrite bare_variables. cbn [sheet_rows bare_sheet fills_expanded].
  rewrite mapi_map. set (sc := merge_variables _ ext).
  rewrite (mapi_eq _ (fun i a => omap bare_row (row_eval ev sc i a))) by (intros; apply bare_row_eval).
  rewrite <- map_mapi, par_collect_omap. destruct (par_collect sched (mapi (row_eval ev sc) 0 (sheet_rows s))); reflexivity.
Qed.
(** evaluating restyled sheets: the same error, or restyled results *)
Lemma restyled_eval ev sched sc req s s' ext : restyled s s' ->
  omap bare_sheet (omap pr_sheet (main_eval ev sched {| pr_scope := sc; pr_sheet := s; pr_required := req |} ext))
  = omap bare_sheet (omap pr_sheet (main_eval ev sched {| pr_scope := sc; pr_sheet := s'; pr_required := req |} ext)).
Proof.
  intro R. apply bare_sheet_spec in R.
  assert (X : bare_program {| pr_scope := sc; pr_sheet := s; pr_required := req |} = bare_program {| pr_scope := sc; pr_sheet := s'; pr_required := req |}) by (unfold bare_program; cbn [pr_scope pr_sheet pr_required]; congruence).
  assert (Y : forall p, omap bare_sheet (omap pr_sheet (main_eval ev sched p ext)) = omap pr_sheet (main_eval ev sched (bare_program p) ext)).
  { intro p. rewrite bare_main_eval. destruct (main_eval ev sched p ext); reflexivity. }
  rewrite !Y, X. reflexivity.
Qed.

(** ** Files *)
Lemma last_var_filter os d : last_var (filter names_or_fills os) d = last_var os d.
Proof. revert d. unfold last_var. induction os as [|o os IH]; intro d; [reflexivity|]. destruct o; cbn [filter names_or_fills fold_left]; apply IH. Qed.
Lemma last_fill_filter y os d : last_fill y (filter names_or_fills os) d = last_fill y os d.
Proof. revert d. unfold last_fill. induction os as [|o os IH]; intro d; [reflexivity|]. destruct o; cbn [filter names_or_fills fold_left]; apply IH. Qed.
(** the state of the row while its cells are read, but for its options *)
Definition like (w w' : row) : Prop := row_fill w = row_fill w' /\ row_var w = row_var w'.
Lemma cell_restyled co f f' w w' c v : located f -> located f' -> f_address f = f_address f' -> restyled_field co f f' -> like w w' ->
  cell_parse co f w = Ok (c, v) -> exists c' v', cell_parse co f' w' = Ok (c', v') /\ restyled_cell c c' /\ like v v'.
Proof.
  intros L L' Ea [rd [rd' [[E [H1 H2]] [[E' [H1' H2']] [A [A' [T [P' [Vc Vr]]]]]]]]] [Wf Wv] P.
  destruct (cell_complete co f w _ _ _ A L E H1 H2) as [C1 C2]. destruct (cell_complete co f' w' _ _ _ A' L' E' H1' H2') as [C1' _]. specialize (C1' P').
  destruct (placed_dec (addr_x (f_address f)) (rd_lists rd)) as [Pl|Pl]; [|exfalso; destruct (C2 Pl) as [e X]; unfold cell_parse in P; rewrite X in P; discriminate P].
  specialize (C1 Pl). unfold cell_parse in *. rewrite C1 in P. rewrite C1'. cbn [at_address bind] in *.
  change (parsed_value (cell_after f (rd_lists rd) (rd_value rd) w)) with (trim (rd_value rd)) in P. change (parsed_value (cell_after f' (rd_lists rd') (rd_value rd') w')) with (trim (rd_value rd')).
  rewrite <- T. set (t := trim (rd_value rd)) in *.
  assert (X : forall a, parse_formula co f t = Ok a -> parse_formula co f' t = Ok a).
  { intros a H. unfold parse_formula in *. destruct (starts_with [c_eq] t); [|exact H]. destruct (ast_parse (co_oracle co) false t); try discriminate H; exact H. }
  destruct (parse_formula co f t) as [a| | |] eqn:Ef; try discriminate P. rewrite (X a eq_refl). cbn [bind] in *. injection P as <- <-.
  do 2 eexists. split; [reflexivity|]. unfold restyled_cell, like. cbn -[last_var last_fill]. split; [|split].
  - split; [reflexivity|]. split; [first [exact T|reflexivity]|]. rewrite <- last_var_filter, Vc. apply last_var_filter.
  - rewrite Ea, Wf, <- last_fill_filter, Vr. apply last_fill_filter.
  - rewrite Wv, <- last_var_filter, Vr. apply last_var_filter.
Qed.
Lemma row_restyled co y fs fs' r : record_fields y fs -> record_fields y fs' -> Forall2 (restyled_field co) fs fs' -> row_parse co fs = Ok r ->
  exists r', row_parse co fs' = Ok r' /\ restyled_row r r'.
Proof.
  intros R R' H P. unfold row_parse in *.
  assert (X : forall k w w' cs w1, (forall i f f', nth_error fs i = Some f -> nth_error fs' i = Some f' -> f_address f = f_address f' /\ located f /\ located f') -> like w w' -> row_parse_cells co fs w = Ok (cs, w1) ->
     k = 0 -> exists cs' w1', row_parse_cells co fs' w' = Ok (cs', w1') /\ Forall2 restyled_cell cs cs' /\ like w1 w1').
  { clear P R R'. induction H as [|f f' fs fs' Hf _ IH]; intros k w w' cs w1 Ad Lw P K; cbn [row_parse_cells] in *; [injection P as <- <-; do 2 eexists; split; [reflexivity|]; split; [constructor|exact Lw]|].
    destruct (cell_parse co f w) as [[c v1]| | |] eqn:E1; try discriminate P. cbn [bind] in P. destruct (Ad 0 f f' eq_refl eq_refl) as [Ea [L L']].
    destruct (cell_restyled co f f' w w' c v1 L L' Ea Hf Lw E1) as [c' [v1' [-> [A B]]]]. cbn [bind].
    destruct (row_parse_cells co fs v1) as [[cs1 v2]| | |] eqn:E2; try discriminate P. cbn [bind] in P. injection P as <- <-.
    destruct (IH 0 _ _ _ _ (fun i f f' => Ad (S i) f f') B E2 eq_refl) as [cs' [w1' [-> [A' B']]]]. cbn [bind]. do 2 eexists. split; [reflexivity|]. split; [constructor; assumption|exact B']. }
  destruct (row_parse_cells co fs default_row) as [[cs w]| | |] eqn:E1; try discriminate P. cbn [bind] in P. injection P as <-.
  destruct (X 0 default_row default_row cs w) as [cs' [w' [-> [A [B1 B2]]]]]; [|split; reflexivity|exact E1|reflexivity|].
  { intros i f f' Hi Hi'. destruct (R i f Hi) as [-> L], (R' i f' Hi') as [-> L']. auto. }
  cbn [bind]. eexists. split; [reflexivity|]. unfold restyled_row. cbn [row_fill row_var row_cells]. auto.
Qed.
Lemma load_restyled co text text' p : restyled_file co text text' -> load_source co text = Ok p ->
  exists p', load_source co text' = Ok p' /\ pr_scope p' = pr_scope p /\ pr_required p' = pr_required p /\ restyled (pr_sheet p) (pr_sheet p').
Proof.
  intros [Hc [rs [rs' [Hr [Hr' Hf]]]]] Ld. unfold load_source in *. cbv zeta in *. unfold sheet_parse in *. unfold fields_of in Hr, Hr'. rewrite <- Hc. rewrite Hr in Ld. rewrite Hr'. cbn [bind] in *.
  assert (Rows : forall rows, parse_rows co rs = Ok rows -> exists rows', parse_rows co rs' = Ok rows' /\ Forall2 restyled_row rows rows').
  { assert (Y : forall y fs, nth_error rs y = Some fs -> record_fields (y + 0) fs) by (intros y fs Hy; rewrite Nat.add_0_r; exact (csvp_record _ _ _ _ _ Hr Hy)).
    assert (Y' : forall y fs, nth_error rs' y = Some fs -> record_fields (y + 0) fs) by (intros y fs Hy; rewrite Nat.add_0_r; exact (csvp_record _ _ _ _ _ Hr' Hy)).
    revert Y Y'. clear -Hf. generalize 0. induction Hf as [|fs fs' rs rs' Hf _ IH]; intros k Y Y' rows P; cbn [parse_rows] in *; [injection P as <-; eexists; split; [reflexivity|constructor]|].
    destruct (row_parse co fs) as [r| | |] eqn:E1; try discriminate P. cbn [bind] in P. destruct (row_restyled co k fs fs' r (Y 0 fs eq_refl) (Y' 0 fs' eq_refl) Hf E1) as [r' [-> A]]. cbn [bind].
    destruct (parse_rows co rs) as [rows1| | |]; try discriminate P. cbn [bind] in P. injection P as <-.
    destruct (IH (S k)) with (rows := rows1) as [rows' [-> B]]; [| |reflexivity|].
    - intros y f Hy. rewrite Nat.add_succ_r. apply (Y (S y)). exact Hy.
    - intros y f Hy. rewrite Nat.add_succ_r. apply (Y' (S y)). exact Hy.
    - cbn [bind]. eexists. split; [reflexivity|]. constructor; assumption. }
  match type of Ld with bind ?x _ = _ => destruct x as [[sc req]| | |]; try discriminate Ld end. cbn [bind] in *.
  destruct (parse_rows co rs) as [rows| | |]; cbn [bind] in Ld; try discriminate Ld. injection Ld as <-. destruct (Rows _ eq_refl) as [rows' [-> B]]. cbn [bind].
  eexists. split; [reflexivity|]. cbn [pr_scope pr_required pr_sheet]. repeat split. exact B.
Qed.

(** ** Output *)
Lemma restyled_show c c' : restyled_cell c c' -> show_cell c = show_cell c' /\ google_value c = google_value c' /\ excel_value c = excel_value c'.
Proof. intros [A [B _]]. unfold show_cell, google_value, excel_value. rewrite A, B. auto. Qed.
Lemma Forall2_rows s s' : restyled s s' -> Forall2 restyled_row (sheet_rows s) (sheet_rows s').
Proof. intros [_ H]. exact H. Qed.
Lemma merge_restyled V ow (X : Type) (h : merged V -> X) : (forall c c', restyled_cell c c' -> h (MNew c) = h (MNew c')) ->
  forall (ex : list (existing V)) cs cs', Forall2 restyled_cell cs cs' -> map h (merge_rows ow ex cs) = map h (merge_rows ow ex cs').
Proof.
  intros Hh ex cs cs' F. pose proof (EvalProofs.Forall2_len _ _ _ F) as L.
  apply PropCompile.nth_error_ext. intro i. rewrite !nth_error_map, !merge_rows_nth, L. destruct (i <? _); [|reflexivity]. cbn [option_map]. f_equal.
  destruct (nth_error cs i) as [c|] eqn:E.
  - destruct (PropModules.Forall2_nth_l _ _ _ _ _ F E) as [c' [E' R]]. rewrite E'. unfold merge_cell. destruct (nth i ex EEmpty); [destruct ow; [auto|reflexivity]|auto].
  - assert (E' : nth_error cs' i = None) by (apply nth_error_None; apply nth_error_None in E; lia). rewrite E'. reflexivity.
Qed.
Lemma csv_restyled ow records s s' : restyled s s' -> csv_write ow records s = csv_write ow records s'.
Proof.
  intro R. pose proof (Forall2_rows _ _ R) as F. unfold csv_write.
  assert (W : widest_row s = widest_row s').
  { unfold widest_row. generalize 0. induction F as [|r r' l l' H _ IH]; intro m; cbn [fold_left]; [reflexivity|]. rewrite (EvalProofs.Forall2_len _ _ _ (proj2 (proj2 H))). apply IH. }
  rewrite W. generalize (widest_row s') as wd. clear W. intro wd. generalize (csv_existing records).
  induction F as [|r r' l l' H _ IH]; intro ex; [reflexivity|]. cbn [csv_rows]. rewrite (IH (tl ex)). f_equal. f_equal.
  apply merge_restyled; [|exact (proj2 (proj2 H))]. intros c c' Hc. cbn [csv_field]. apply (restyled_show _ _ Hc).
Qed.
Lemma google_rows_restyled V ow : forall rows rows', Forall2 restyled_row rows rows' -> forall ex : list (list (existing V)), map (map sent) (google_rows ow ex rows) = map (map sent) (google_rows ow ex rows').
Proof.
  intros rows rows' F. induction F as [|r r' l l' H _ IH]; intro ex; [reflexivity|]. cbn [google_rows map]. rewrite IH. f_equal. rewrite !map_map.
  apply (merge_restyled V ow _ (fun m => sent (gcell_of m))); [|exact (proj2 (proj2 H))]. intros c c' Hc. cbn [gcell_of sent]. rewrite (proj1 (proj2 (restyled_show _ _ Hc))). reflexivity.
Qed.
Lemma chunks_map {A B} (f : A -> B) n : forall k l, map (map f) (chunks k n l) = chunks k n (map f l).
Proof.
  induction k as [|k IH]; intro l; [reflexivity|]. destruct l as [|a l]; [reflexivity|]. cbn [chunks]. rewrite map_cons, IH. cbn [chunks map]. f_equal; [symmetry; apply (firstn_map f n (a :: l))|f_equal; symmetry; apply (skipn_map f n (a :: l))].
Qed.
Lemma google_restyled V ow offset (ex : list (list (existing V))) s s' : restyled s s' ->
  sent_requests (google_requests ow offset ex (sheet_rows s)) = sent_requests (google_requests ow offset ex (sheet_rows s')).
Proof.
  intro R. pose proof (google_rows_restyled V ow _ _ (Forall2_rows _ _ R) ex) as G. unfold google_requests. cbv zeta.
  assert (L : length (google_rows ow ex (sheet_rows s)) = length (google_rows ow ex (sheet_rows s'))) by (apply (f_equal (@length _)) in G; rewrite !map_length in G; exact G).
  rewrite L. set (k := length (google_rows ow ex (sheet_rows s'))). pose proof (f_equal (chunks k 1000) G) as C. rewrite <- !chunks_map in C.
  set (q := chunks k 1000 (google_rows ow ex (sheet_rows s))) in *. set (q' := chunks k 1000 (google_rows ow ex (sheet_rows s'))) in *. clearbody q q'. clear -C.
  destruct q as [|x q], q' as [|x' q']; try discriminate C; [reflexivity|]. destruct ((fst offset <? 2 ^ 31)%N && (snd offset <? 2 ^ 31)%N); [|reflexivity].
  unfold sent_requests. f_equal. rewrite !map_map. cbn [at_row at_column data]. revert C. generalize (x :: q) (x' :: q'). induction l as [|a l IH]; intros [|a' l'] C; try discriminate C; [reflexivity|]. cbn [map] in *.
  injection C as C1 C2. f_equal; [congruence|apply IH; exact C2].
Qed.
Definition same_held {V} (w w' : worksheet V) : Prop := forall p, holds w p = holds w' p.
Lemma excel_cell_restyled V ow p c c' (a a' : worksheet V * list (address * data_validation)) : restyled_cell c c' -> same_held (fst a) (fst a') -> same_held (fst (excel_cell ow p c a)) (fst (excel_cell ow p c' a')).
Proof.
  intros R H. destruct a as [w t], a' as [w' t']. cbn [fst] in *. pose proof (restyled_show _ _ R) as [_ [_ X]]. unfold excel_cell. pose proof (H p) as Hp. unfold holds in Hp.
  unfold excel_existing. destruct (ws_cells w p) as [x|] eqn:E, (ws_cells w' p) as [x'|] eqn:E'; try discriminate Hp; cbn [merge_cell].
  - destruct ow; [|exact H]. injection Hp as H1 H2. cbn [fst]. intro q. unfold holds. cbn [ws_cells]. destruct (address_eqb q p); [|apply H]. cbn [option_map x_before x_set]. rewrite H1, X, H2. reflexivity.
  - cbn [fst]. intro q. unfold holds. cbn [ws_cells]. destruct (address_eqb q p); [|apply H]. cbn [option_map x_before x_set]. rewrite X. reflexivity.
Qed.
Lemma excel_rows_restyled V ow : forall rows rows', Forall2 restyled_row rows rows' -> forall y (a a' : worksheet V * list (address * data_validation)), same_held (fst a) (fst a') ->
  same_held (fst (excel_rows ow y rows a)) (fst (excel_rows ow y rows' a')).
Proof.
  intros rows rows' F. induction F as [|r r' l l' H _ IH]; intros y a a' Ha; cbn [excel_rows]; [exact Ha|]. apply IH. destruct H as [_ [_ H]]. generalize 0. revert a a' Ha.
  induction H as [|c c' cs cs' H _ IHc]; intros a a' Ha x; cbn [excel_row]; [exact Ha|]. apply IHc. apply excel_cell_restyled; assumption.
Qed.
Lemma excel_restyled V ow s s' (w : worksheet V) p : restyled s s' -> holds (build_worksheet ow s w) p = holds (build_worksheet ow s' w) p.
Proof.
  intro R. pose proof (excel_rows_restyled V ow _ _ (Forall2_rows _ _ R) 0 (w, []) (w, []) (fun _ => eq_refl)) as H. unfold build_worksheet.
  destruct (excel_rows ow 0 (sheet_rows s) (w, [])) as [v t], (excel_rows ow 0 (sheet_rows s') (w, [])) as [v' t']. cbn [fst] in H. specialize (H p).
  destruct t, t'; exact H.
Qed.
