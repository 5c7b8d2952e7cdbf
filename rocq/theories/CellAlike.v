(** * CellAlike: where a cell stands in the file only matters for the positions in error messages. *)
From Verif Require Import Base BaseProofs Csvp CsvpSpec SourceCode Ast AstLexer AstParser Options CellLexer CellParser Sheet SameSpec SameProofs CsvShift.

(** the same outcome, up to the positions of errors *)
Definition alike {A} (x y : outcome cell_error A) : Prop :=
  match x, y with
  | Ok a, Ok b => a = b
  | Err e, Err e' => ce_input e = ce_input e' /\ ce_message e = ce_message e'
  | Panic, Panic | NoFuel, NoFuel => True
  | _, _ => False
  end.
Lemma outcome_alike_refl {A} (x : outcome cell_error A) : alike x x.
Proof. destruct x; cbn; auto. Qed.
Lemma alike_bind {A B} (x y : outcome cell_error A) (k k' : A -> outcome cell_error B) :
  alike x y -> (forall a, alike (k a) (k' a)) -> alike (bind x k) (bind y k').
Proof.
  intros H K. destruct x, y; cbn [alike bind] in *; try contradiction; auto. subst. apply K.
Qed.

Definition same_place (f f' : field) : Prop :=
  f_address f = f_address f' /\ f_value f = f_value f' /\ length (f_positions f) = length (f_positions f').
Lemma report_alike {A} f f' w n : same_place f f' -> alike (A := A) (report f w n) (report f' w n).
Proof.
  intros [_ [_ H]]. unfold report, position_for_offset. rewrite H. destruct (length (f_positions f') <=? n) eqn:L; [exact I|].
  apply Nat.leb_gt in L. destruct (nth_error (f_positions f) n) eqn:E1; [|apply nth_error_None in E1; lia].
  destruct (nth_error (f_positions f') n) eqn:E2; [|apply nth_error_None in E2; lia]. split; reflexivity.
Qed.

Ltac alike_step :=
  first [ apply outcome_alike_refl | unfold token_error, unknown_string; apply report_alike; assumption
        | assumption
        | match goal with H : forall _, alike _ _ |- _ => apply H end
        | match goal with H : forall _ _, alike _ _ |- _ => apply H end
        | match goal with H : forall _ _ _, alike _ _ |- _ => apply H end
        | match goal with H : forall _ _ _ _, alike _ _ |- _ => apply H end
        | apply alike_bind; [|intros [? ?]] | apply alike_bind; [|intros ?]
        | match goal with |- alike (let (_, _) := ?x in _) _ => destruct x end
        | match goal with |- alike (match ?x with _ => _ end) (match ?x with _ => _ end) => destruct x end ].
Ltac alike_all := intros; repeat alike_step.

Section Parsers.
  Variables (co : cell_oracle) (f f' : field).
  Hypothesis Ha : same_place f f'.

  Lemma take_alike l sub : alike (take f l sub) (take f' l sub).
  Proof. unfold take. cbv zeta. alike_all. Qed.
  Lemma take_while_alike l k p : alike (take_while f l k p) (take_while f' l k p).
  Proof. unfold take_while. cbv zeta. alike_all. Qed.
  Lemma take_color_alike l : alike (take_color co f l) (take_color co f' l).
  Proof. unfold take_color. cbv zeta. alike_all. Qed.
  Lemma take_single_alike l : alike (take_single_quoted_string f l) (take_single_quoted_string f' l).
  Proof. unfold take_single_quoted_string. cbv zeta. alike_all. Qed.
  Lemma take_string_alike l : alike (take_string co f l) (take_string co f' l).
  Proof. unfold take_string. cbv zeta. destruct (cl_input (take_whitespace l)); [apply take_while_alike|]. destruct (_ =? _)%N; [apply take_single_alike|apply take_while_alike]. Qed.
  Lemma take_date_alike l : alike (take_date co f l) (take_date co f' l).
  Proof. unfold take_date. cbv zeta. alike_all. Qed.
  Lemma maybe_quoted_alike l : alike (maybe_take_single_quoted_string f l) (maybe_take_single_quoted_string f' l).
  Proof.
    unfold maybe_take_single_quoted_string. destruct (span is_blank (cl_input l)) as [a b]. destruct (has_quoted b); [|apply outcome_alike_refl].
    pose proof (take_single_alike l) as H. destruct (take_single_quoted_string f l), (take_single_quoted_string f' l); cbn [alike] in *; try contradiction; auto. congruence.
  Qed.
  Lemma or_error_alike {A} t m (x : option A) : alike (or_error f t m x) (or_error f' t m x).
  Proof. unfold or_error. alike_all. Qed.
  Lemma rgb_alike t : alike (rgb_of_token f t) (rgb_of_token f' t).
  Proof. unfold rgb_of_token. alike_all. Qed.
  Lemma number_alike t : alike (into_number f t) (into_number f' t).
  Proof. apply or_error_alike. Qed.
  Lemma date_alike t : alike (into_date co f t) (into_date co f' t).
  Proof. apply or_error_alike. Qed.
  Lemma ast_of_alike t : alike (ast_of_ctoken co f t) (ast_of_ctoken co f' t).
  Proof. unfold ast_of_ctoken. pose proof date_alike. pose proof number_alike. pose proof (@or_error_alike str). alike_all. Qed.
  Lemma one_alike {A} tk (conv : field -> ctoken -> outcome cell_error A) l :
    (forall l, alike (tk f l) (tk f' l)) -> (forall t, alike (conv f t) (conv f' t)) -> alike (one_in_parens tk conv f l) (one_in_parens tk conv f' l).
  Proof.
    intros Ht Hc. unfold one_in_parens. apply alike_bind; [apply take_alike|]. intro l1. apply alike_bind; [apply Ht|]. intros [t l2].
    pose proof (Hc t) as H. destruct (conv f t) as [a|e| |], (conv f' t) as [a'|e'| |]; cbn [alike] in H; try contradiction; try exact I.
    - subst a'. apply alike_bind; [apply take_alike|]. intro. apply outcome_alike_refl.
    - apply alike_bind; [apply take_alike|]. intro. exact H.
  Qed.
  Lemma two_alike {A} tk (conv : field -> ctoken -> outcome cell_error A) l :
    (forall l, alike (tk f l) (tk f' l)) -> (forall t, alike (conv f t) (conv f' t)) -> alike (two_in_parens tk conv f l) (two_in_parens tk conv f' l).
  Proof. intros Ht Hc. unfold two_in_parens. pose proof take_alike. alike_all. Qed.
  Lemma list_token_alike l : alike (in_list_token co f l) (in_list_token co f' l).
  Proof. unfold in_list_token. cbv zeta. pose proof maybe_quoted_alike. alike_all. Qed.
  Lemma list_loop_alike n : forall l acc, alike (in_list_loop n co f l acc) (in_list_loop n co f' l acc).
  Proof. induction n as [|n IH]; intros l acc; [apply outcome_alike_refl|]. cbn [in_list_loop]. pose proof list_token_alike. pose proof ast_of_alike. alike_all. Qed.
  Lemma in_list_alike l : alike (in_list co f l) (in_list co f' l).
  Proof. unfold in_list. pose proof take_alike. pose proof list_loop_alike. alike_all. Qed.
  Lemma in_range_alike l : alike (in_range co f l) (in_range co f' l).
  Proof. unfold in_range, take_a1. pose proof take_alike. pose proof take_while_alike. pose proof (@or_error_alike str). alike_all. Qed.
  Definition par {A} (p : parser A) : Prop := forall l, alike (p f l) (p f' l).
  Lemma pmap_alike {A B} (g : A -> B) p : par p -> par (pmap g p).
  Proof. intros H l. unfold pmap. apply alike_bind; [apply H|]. intros [? ?]. apply outcome_alike_refl. Qed.
  Lemma args_alike k : par (validation_args co k).
  Proof.
    assert (D1 : par (one_date co)) by (intro; apply one_alike; [apply take_date_alike|apply date_alike]).
    assert (D2 : par (two_dates co)) by (intro; apply two_alike; [apply take_date_alike|apply date_alike]).
    assert (N1 : par one_number) by (intro; apply one_alike; [intro; apply take_while_alike|apply number_alike]).
    assert (N2 : par two_numbers) by (intro; apply two_alike; [intro; apply take_while_alike|apply number_alike]).
    assert (S1 : par (one_string co)) by (intro; apply one_alike; [apply take_string_alike|intro; apply outcome_alike_refl]).
    destruct k; try (apply pmap_alike; first [assumption | exact in_list_alike | exact in_range_alike]); intro; apply outcome_alike_refl.
  Qed.
  Lemma right_side_alike l : alike (take_option_right_side co f l) (take_option_right_side co f' l).
  Proof. unfold take_option_right_side, take_identifier. pose proof take_alike. pose proof take_while_alike. alike_all. Qed.
  Lemma word_alike {A} (of : str -> option A) m mk : par (word_option co of m mk).
  Proof. intro l. unfold word_option. pose proof right_side_alike. pose proof (@or_error_alike A). alike_all. Qed.
  Lemma color_alike mk : par (color_option co mk).
  Proof. intro l. unfold color_option. pose proof take_alike. pose proof take_color_alike. pose proof rgb_alike. alike_all. Qed.
  Lemma string_alike mk : par (string_option co mk).
  Proof. intro l. unfold string_option. pose proof take_alike. pose proof take_string_alike. alike_all. Qed.
  Lemma option_alike r k name : par (option_value co r k name).
  Proof.
    destruct k; try apply word_alike; try apply color_alike; try apply string_alike; try (intro; apply outcome_alike_refl).
    - intro l. cbn [option_value]. unfold validate_option. apply alike_bind; [apply right_side_alike|]. intros [t l1].
      apply alike_bind; [apply or_error_alike|]. intro k. apply pmap_alike. apply args_alike.
    - intro l. cbn [option_value]. unfold fill_option, take_positive_number. pose proof take_while_alike. pose proof (@or_error_alike nat). alike_all.
    - intro l. cbn [option_value]. unfold font_size_option, take_positive_number. pose proof take_alike. pose proof take_while_alike. pose proof (@or_error_alike nat). alike_all.
    - intro l. cbn [option_value]. unfold var_option. pose proof right_side_alike. alike_all.
  Qed.
  Lemma parse_option_alike r : par (parse_option co r).
  Proof.
    intro l. unfold parse_option, take_option_name. apply alike_bind; [apply take_while_alike|]. intros [t l1].
    apply alike_bind; [apply or_error_alike|]. intro k. apply option_alike.
  Qed.

  (** the same outcome up to positions and to the fields of cells *)
  Definition cell_out (s : cell * row) : cell * row := (strip_cell (fst s), snd s).
  Definition alike_to {A B} (g : A -> B) (x y : outcome cell_error A) : Prop := alike (omap g x) (omap g y).
  Lemma alike_to_bind {A B C D} (g : A -> C) (h : B -> D) x y k k' :
    alike_to g x y -> (forall a b, g a = g b -> alike_to h (k a) (k' b)) -> alike_to h (bind x k) (bind y k').
  Proof. unfold alike_to. intros H K. destruct x, y; cbn [omap alike bind] in *; try contradiction; auto. Qed.
  Lemma alike_to_of {A B} (g : A -> B) x y : alike x y -> alike_to g x y.
  Proof. unfold alike_to. destruct x, y; cbn; auto. intros ->. reflexivity. Qed.
  Lemma assign_alike r o s s' : cell_out s = cell_out s' -> cell_out (assign r f o s) = cell_out (assign r f' o s').
  Proof.
    destruct s as [c w], s' as [c' w']. unfold cell_out. cbn [fst snd]. intro H. apply pair_equal_spec in H as [H <-]. unfold assign. rewrite (proj1 Ha). destruct r; cbn [fst snd]; f_equal; [exact H|].
    apply strip_cell_alike in H as [H1 [H2 [H3 H4]]]. apply strip_cell_alike. unfold alike_cell, assign_cell. cbn [cell_ast parsed_value cell_options cell_var]. rewrite H3, H4. auto.
  Qed.
  Lemma cell_options_alike r : forall n l s s', cell_out s = cell_out s' ->
    alike_to (fun x => (cell_out (fst x), snd x)) (parse_cell_options n co r f l s) (parse_cell_options n co r f' l s').
  Proof.
    induction n as [|n IH]; intros l s s' H; [exact I|]. cbn [parse_cell_options].
    eapply alike_to_bind with (g := fun x => x); [apply alike_to_of; apply parse_option_alike|]. intros [o l1] ? <-.
    cbv zeta. pose proof (assign_alike r o s s' H) as A. destruct (maybe_take l1 (lit "/")) as [[l2|] l3]; [apply IH; exact A|].
    destruct (maybe_take l3 (lit "]]")) as [[l4|] l5]; [|apply IH; exact A]. unfold alike_to. cbn [omap alike fst snd]. rewrite A. reflexivity.
  Qed.
  Lemma option_lists_alike : forall n l q q' r, option_map strip_cell q = option_map strip_cell q' ->
    alike_to (fun '(p, r, l) => (option_map strip_cell p, r, l)) (parse_option_lists n co f l q r) (parse_option_lists n co f' l q' r).
  Proof.
    induction n as [|n IH]; intros l q q' r H; [exact I|]. cbn [parse_option_lists].
    destruct (maybe_take_start_options l) as [[[[st tok] l1]|] l2]; [|unfold alike_to; cbn [omap alike]; rewrite H; reflexivity].
    cbv zeta. set (is_row := match st with StartRow => true | StartCell => false end). rewrite (proj1 Ha).
    destruct (is_row && _); [apply alike_to_of; apply report_alike; exact Ha|].
    assert (B : match q with Some _ => true | None => false end = match q' with Some _ => true | None => false end) by (destruct q, q'; cbn in H; congruence).
    rewrite B. destruct (negb is_row && _); [apply alike_to_of; apply report_alike; exact Ha|].
    eapply alike_to_bind; [apply cell_options_alike; reflexivity|]. intros [s l3] [s' l3']. cbn [fst snd]. intro E. apply pair_equal_spec in E as [E <-].
    unfold cell_out in E. apply pair_equal_spec in E as [E1 E2]. rewrite E2. apply IH. destruct is_row; [exact H|]. cbn [option_map]. rewrite E1. reflexivity.
  Qed.
  Lemma parse_cell_alike r : alike_to cell_out (parse_cell co f r) (parse_cell co f' r).
  Proof.
    unfold parse_cell. rewrite (proj1 (proj2 Ha)). eapply alike_to_bind; [apply option_lists_alike; reflexivity|]. intros [[q r1] l] [[q' r1'] l'] E.
    apply pair_equal_spec in E as [E <-]. apply pair_equal_spec in E as [E <-]. unfold alike_to. cbn [omap alike]. unfold cell_out. cbn [fst snd]. f_equal.
    apply strip_cell_alike. assert (X : strip_cell match q with Some c => c | None => cell_default_from r1 f end = strip_cell match q' with Some c => c | None => cell_default_from r1 f' end) by (destruct q, q'; cbn [option_map] in E; try discriminate E; try reflexivity; congruence).
    apply strip_cell_alike in X as [X1 [X2 [X3 X4]]]. unfold alike_cell. cbn [cell_ast parsed_value cell_options cell_var]. auto.
  Qed.
  (** either both fail or both succeed alike *)
  Lemma cell_parse_alike r c w : cell_parse co f r = Ok (c, w) -> exists c', cell_parse co f' r = Ok (c', w) /\ alike_cell c c'.
  Proof.
    unfold cell_parse. pose proof (parse_cell_alike r) as P. unfold alike_to in P. destruct (parse_cell co f r) as [[c1 w1]| | |]; cbn [at_address bind]; intro H; try discriminate H.
    destruct (parse_cell co f' r) as [[c2 w2]| | |]; cbn [omap alike] in P; try contradiction. unfold cell_out in P. cbn [fst snd] in P. apply pair_equal_spec in P as [P <-].
    apply strip_cell_alike in P as [P1 [P2 [P3 P4]]]. cbn [at_address bind]. rewrite <- P2. unfold parse_formula in *.
    destruct (starts_with [c_eq] (parsed_value c1)).
    - destruct (ast_parse (co_oracle co) false (parsed_value c1)) as [n| | |]; cbn [bind] in *; try discriminate H. injection H as <- <-. eexists. split; [reflexivity|]. split; [reflexivity|]. auto.
    - cbn [bind] in *. injection H as <- <-. eexists. split; [reflexivity|]. split; [reflexivity|]. auto.
  Qed.
End Parsers.

Lemma row_parse_alike co fs fs' r : Forall2 same_place fs fs' -> row_parse co fs = Ok r -> exists r', row_parse co fs' = Ok r' /\ alike_row r r'.
Proof.
  intros H P. unfold row_parse in *. set (w := default_row) in *. clearbody w.
  assert (X : forall w cs w1, row_parse_cells co fs w = Ok (cs, w1) -> exists cs', row_parse_cells co fs' w = Ok (cs', w1) /\ Forall2 alike_cell cs cs').
  { clear P. induction H as [|f f' fs fs' Hf _ IH]; intros v cs w1 P; cbn [row_parse_cells] in *; [injection P as <- <-; eexists; split; [reflexivity|constructor]|].
    destruct (cell_parse co f v) as [[c v1]| | |] eqn:E1; try discriminate P. cbn [bind] in P. destruct (cell_parse_alike co f f' Hf v c v1 E1) as [c' [-> A]]. cbn [bind].
    destruct (row_parse_cells co fs v1) as [[cs1 v2]| | |] eqn:E2; try discriminate P. cbn [bind] in P. injection P as <- <-. destruct (IH _ _ _ E2) as [cs' [-> B]]. cbn [bind]. eexists. split; [reflexivity|]. constructor; assumption. }
  destruct (row_parse_cells co fs w) as [[cs w1]| | |] eqn:E; try discriminate P. cbn [bind] in P. injection P as <-. destruct (X _ _ _ E) as [cs' [-> A]]. cbn [bind]. eexists. split; [reflexivity|].
  unfold alike_row. cbn [row_options row_fill row_var row_cells]. auto.
Qed.
Lemma parse_rows_alike co rs rs' rows : Forall2 (Forall2 same_place) rs rs' -> parse_rows co rs = Ok rows -> exists rows', parse_rows co rs' = Ok rows' /\ Forall2 alike_row rows rows'.
Proof.
  intro H. revert rows. induction H as [|fs fs' rs rs' Hf _ IH]; intros rows P; cbn [parse_rows] in *; [injection P as <-; eexists; split; [reflexivity|constructor]|].
  destruct (row_parse co fs) as [r| | |] eqn:E1; try discriminate P. cbn [bind] in P. destruct (row_parse_alike co fs fs' r Hf E1) as [r' [-> A]]. cbn [bind].
  destruct (parse_rows co rs) as [rows1| | |]; try discriminate P. cbn [bind] in P. injection P as <-. destruct (IH _ eq_refl) as [rows' [-> B]]. cbn [bind]. eexists. split; [reflexivity|]. constructor; assumption.
Qed.
(** the same spreadsheet section under code sections of different lengths *)
Theorem sheet_parse_alike co src src' s : csv_section src = csv_section src' -> sheet_parse co src = Ok s -> exists s', sheet_parse co src' = Ok s' /\ alike_sheet s s'.
Proof.
  unfold sheet_parse. intros <- P. rewrite csvp_shift in *. destruct (csvp_parse {| separator := c_comma; lines_above := 0 |} (csv_section src)) as [rs| | |]; cbn [shift_out bind] in *; try discriminate P.
  destruct (parse_rows co (map (map (shift_field _)) rs)) as [rows| | |] eqn:E1; try discriminate P. cbn [bind] in P. injection P as <-.
  assert (F : Forall2 (Forall2 same_place) (map (map (shift_field (length_of_code_section src))) rs) (map (map (shift_field (length_of_code_section src'))) rs)).
  { clear. induction rs as [|fs rs IH]; cbn [map]; constructor; [|exact IH]. clear. induction fs as [|f fs IH]; cbn [map]; constructor; [|exact IH].
    unfold same_place, shift_field. cbn [f_address f_value f_positions]. rewrite !map_length. auto. }
  destruct (parse_rows_alike co _ _ _ F E1) as [rows' [-> A]]. cbn [bind]. eexists. split; [reflexivity|]. split; [reflexivity|exact A].
Qed.
